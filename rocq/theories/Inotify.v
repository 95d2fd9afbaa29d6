(** * Inotify: the watcher of /repo/watcher_inotify.go, sequentially.

    The kernel's side of inotify(7) is modelled from its manual page: a table from
    watch descriptors to inodes and masks, descriptors never handed out twice, a
    second inotify_add_watch on the same inode returning the same descriptor and
    replacing its mask, and descriptors dropped when their inode is gone.  The
    goroutines are in InotifyConc.v. *)
From Verif Require Import Base Event Paths Clean.
From Coq Require Export ZArith.
Local Open Scope N_scope.

(** ** Constants (linux/inotify.h; /repo/event_inotify.go:28-41) *)
Definition InAccess : N := 0x1.
Definition InModify : N := 0x2.
Definition InAttrib : N := 0x4.
Definition InCloseWrite : N := 0x8.
Definition InCloseNowrite : N := 0x10.
Definition InOpen : N := 0x20.
Definition InMovedFrom : N := 0x40.
Definition InMovedTo : N := 0x80.
Definition InCreate : N := 0x100.
Definition InDelete : N := 0x200.
Definition InDeleteSelf : N := 0x400.
Definition InMoveSelf : N := 0x800.
Definition IN_ALL_EVENTS : N := 0xfff.
Definition IN_UNMOUNT : N := 0x2000.
Definition IN_Q_OVERFLOW : N := 0x4000.
Definition IN_IGNORED : N := 0x8000.
Definition IN_ISDIR : N := 0x40000000.

Notation ICreate := (Create linux).
Notation IRemove := (Remove linux).
Notation IWrite := (Write linux).
Notation IRename := (Rename linux).

(** ** encode (/repo/watcher_inotify.go:293-307) *)
Definition enc1 (e g nat : N) : N := if negb (e .& g =? 0) then N.lxor e g .| nat else e.
Definition encode (e : N) : N :=
  let e := enc1 e ICreate (InCreate .| InMovedTo) in
  let e := enc1 e IRemove (InDelete .| InDeleteSelf) in
  let e := enc1 e IWrite InModify in
  enc1 e IRename (InMovedFrom .| InMoveSelf).

(** ** decode (/repo/watcher_inotify.go:314-336): the generic event (0 = none) and
    the native event (None = nil) for requested set [mask] and raw mask [sys]. *)
Definition decode (mask sys : N) : N * option N :=
  let syse := if negb (mask .& sys =? 0) then Some (mask .& sys) else None in
  let imask := encode mask in
  let hit g nat := negb (mask .& g =? 0) && negb (imask .& nat .& sys =? 0) in
  let g :=
    if hit ICreate (InCreate .| InMovedTo) then ICreate
    else if hit IRemove (InDelete .| InDeleteSelf) then IRemove
    else if hit IWrite InModify then IWrite
    else if hit IRename (InMovedFrom .| InMoveSelf) then IRename
    else 0 in
  (g, syse).

(** ** Raw records and events *)
Record raw := Raw { r_wd : Z; r_mask : N; r_cookie : N; r_name : str }.
(** [event] (/repo/event_inotify.go:67-71); [sys] without its Len field. *)
Record ievent := IE { ie_wd : Z; ie_mask : N; ie_cookie : N; ie_path : str; ie_event : N }.
(** What the dispatcher sees of it (/repo/event_inotify.go:73-76). *)
Definition ie_info (e : ievent) : event_info :=
  EI (ie_event e) (ie_path e) (Some (negb (ie_mask e .& IN_ISDIR =? 0))) fTypeUnknown.

(** ** State *)
(** [watched] (/repo/watcher_inotify.go:36-39) *)
Record watched := Wd { w_path : str; w_mask : N }.
(** The kernel's view of a descriptor. *)
Record kwatch := KW { k_ino : positive; k_mask : N }.
Record ist := ISt {
  i_open : bool;                 (* fd != invalidDescriptor *)
  i_m : gmap Z watched;          (* i.m *)
  i_k : gmap Z kwatch;           (* the kernel's table for this instance *)
  i_next : Z;                    (* the next descriptor the kernel hands out *)
}.
Definition inew : ist := ISt false ∅ ∅ 1.

(** inotify_add_watch(2) on the inode [ino] found at the path: the descriptor. *)
Definition kfind (k : gmap Z kwatch) (ino : positive) : option Z :=
  fst <$> head (filter (λ x, k_ino x.2 = ino) (map_to_list k)).
Definition kadd (s : ist) (ino : positive) (mask : N) : ist * Z :=
  match kfind (i_k s) ino with
  | Some wd => (ISt (i_open s) (i_m s) (<[wd := KW ino mask]> (i_k s)) (i_next s), wd)
  | None => (ISt (i_open s) (i_m s) (<[i_next s := KW ino mask]> (i_k s)) (i_next s + 1), i_next s)
  end.
(** inotify_rm_watch(2): EINVAL (here: no effect) if the descriptor is not in use. *)
Definition krm (s : ist) (wd : Z) : ist :=
  ISt (i_open s) (i_m s) (delete wd (i_k s)) (i_next s).

(** ** lazyinit (/repo/watcher_inotify.go:113-137), seen from one goroutine: [ok] is
    whether the system calls succeed.  A new instance has an empty table. *)
Definition lazyinit (ok : bool) (s : ist) : option ist :=
  if i_open s then Some s
  else if ok then Some (ISt true (i_m s) ∅ 1) else None.

(** ** watch (/repo/watcher_inotify.go:86-106).  [ino] is the inode found at the path,
    [None] if inotify_add_watch fails. *)
Definition i_watch (ok : bool) (ino : option positive) (s : ist) (p : str) (e : N) : ist * bool :=
  if negb (e .&^ (All linux .| IN_ALL_EVENTS) =? 0) then (s, false)
  else match lazyinit ok s with
  | None => (s, false)
  | Some s =>
      match ino with
      | None => (s, false)
      | Some ino =>
          let '(s, wd) := kadd s ino (encode e) in
          (ISt (i_open s) (<[wd := Wd p e]> (i_m s)) (i_k s) (i_next s), true)
      end
  end.

(** ** Unwatch (/repo/watcher_inotify.go:342-363).  [ord] is Go's iteration order over
    [i.m]; [ok] is whether removeInotifyWatch returns nil (EINVAL counts as nil,
    /repo/watcher_inotify.go:395-400). *)
Definition i_unwatch (ord : list (Z * watched) → list (Z * watched)) (ok : bool) (s : ist) (p : str) : ist * bool :=
  match head (filter (λ x, w_path x.2 = p) (ord (map_to_list (i_m s)))) with
  | None => (s, false)
  | Some (wd, _) =>
      if ok then let s := krm s wd in (ISt (i_open s) (delete wd (i_m s)) (i_k s) (i_next s), true)
      else (s, false)
  end.

(** ** Close (/repo/watcher_inotify.go:369-392) once the goroutines have ended. *)
Definition i_close (s : ist) : ist :=
  if i_open s then ISt false ∅ ∅ (i_next s) else s.

(** An inode is deleted (or its filesystem unmounted): the kernel drops its
    descriptor and queues an IN_IGNORED record. *)
Definition k_gone (s : ist) (ino : positive) : ist :=
  ISt (i_open s) (i_m s) (filter (λ x, k_ino x.2 ≠ ino) (i_k s)) (i_next s).

(** ** transform (/repo/watcher_inotify.go:263-289) *)
(** filepath.Join of two elements *)
Definition fjoin (a c : str) : str :=
  match a, c with
  | [], [] => []
  | [], _ => clean c
  | _, [] => clean a
  | _, _ => clean (a ++ slash :: c)
  end.
(** One iteration: what is left in [es] and what is appended to [multi]. *)
Definition transform1 (m : gmap Z watched) (r : raw) : option ievent * option ievent :=
  if negb (r_mask r .& (IN_IGNORED .| IN_Q_OVERFLOW) =? 0) then (None, None)
  else match m !! r_wd r with
  | None => (None, None)
  | Some wd =>
      if r_mask r .& encode (w_mask wd) =? 0 then (None, None)
      else
        let path := match r_name r with [] => w_path wd | nm => fjoin (w_path wd) nm end in
        let '(g, sy) := decode (w_mask wd) (r_mask r) in
        (if g =? 0 then None else Some (IE (r_wd r) (r_mask r) (r_cookie r) path g),
         IE (r_wd r) (r_mask r) (r_cookie r) path <$> sy)
  end.
Definition transform (m : gmap Z watched) (rs : list raw) : list (option ievent) :=
  ((transform1 m <$> rs).*1) ++ ((transform1 m <$> rs).*2).
(** What [send] (/repo/watcher_inotify.go:248-257) passes on, in order. *)
Definition sent (m : gmap Z watched) (rs : list raw) : list ievent := omap id (transform m rs).

(** ** read (/repo/watcher_inotify.go:218-243) *)
(** Little-endian 32-bit words (the layout of struct inotify_event on the host;
    big-endian hosts have the bytes of each word reversed, which changes nothing
    below as the kernel and the program run on the same host). *)
Definition u32_of (l : str) : N := foldr (λ c n, N_of_ascii c + 256 * n) 0 l.
Definition i32_of (l : str) : Z :=
  let n := Z.of_N (u32_of l) in if (n <? 2 ^ 31)%Z then n else (n - 2 ^ 32)%Z.
Definition nul : ascii := zero.
(** bytes.TrimRight(s, "\x00") *)
Fixpoint trim0 (l : str) : str :=
  match l with
  | [] => []
  | c :: l => match trim0 l with
              | [] => if Ascii.eqb c nul then [] else [c]
              | l' => c :: l'
              end
  end.
Definition hdrsz : nat := 16.   (* unix.SizeofInotifyEvent *)
(** The loop; [None] = slice bounds out of range (panic) or out of fuel. *)
Fixpoint parse (buf : str) (n : nat) (fuel : nat) (pos : nat) : option (list raw) :=
  if (pos + hdrsz <=? n)%nat then
    match fuel with
    | O => None
    | S fuel =>
        let h := take hdrsz (drop pos buf) in
        let wd := i32_of (take 4 h) in
        let mask := u32_of (take 4 (drop 4 h)) in
        let cookie := u32_of (take 4 (drop 8 h)) in
        let len := N.to_nat (u32_of (take 4 (drop 12 h))) in
        let pos := (pos + hdrsz)%nat in
        if (length buf <? pos + len)%nat then None
        else
          let name := trim0 (take len (drop pos buf)) in
          match parse buf n fuel (pos + len)%nat with
          | Some l => Some (Raw wd mask cookie name :: l)
          | None => None
          end
    end
  else Some [].
(** [r] is the result of read(2): [None] = error. *)
Definition i_read (buf : str) (r : option nat) : option (list raw) :=
  match r with
  | None => Some []
  | Some n => if (n <? hdrsz)%nat then Some [] else parse buf n (S n) 0
  end.
