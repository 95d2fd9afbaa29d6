(** * Trigger: the watcher of /repo/watcher_trigger.go with its two implementations of
    trigger, /repo/watcher_kqueue.go (BSD, macOS without cgo) and /repo/watcher_fen.go
    (Solaris, illumos). *)
From Verif Require Import Base Event Paths Clean.
From Verif Require Inotify.
Local Open Scope N_scope.

(** ** Native events.  Numeric values of the system headers (trusted). *)
(** /repo/event_kqueue.go:29-50 *)
Definition NoteDelete : N := 0x1.
Definition NoteWrite : N := 0x2.
Definition NoteExtend : N := 0x4.
Definition NoteAttrib : N := 0x8.
Definition NoteLink : N := 0x10.
Definition NoteRename : N := 0x20.
Definition NoteRevoke : N := 0x40.
(** /repo/event_fen.go:23-45, /repo/watcher_fen_cgo.go:24-35 *)
Definition FileAccess : N := 0x1.
Definition FileModified : N := 0x2.
Definition FileAttrib : N := 0x4.
Definition FileDelete : N := 0x10.
Definition FileRenameTo : N := 0x20.
Definition FileRenameFrom : N := 0x40.
Definition FileTrunc : N := 0x00100000.
Definition FileNoFollow : N := 0x10000000.
Definition Unmounted : N := 0x20000000.
Definition MountedOver : N := 0x40000000.

(** ** Translation *)
Notation nonzero x := (negb (x =? 0)).
(** /repo/watcher_kqueue.go:169-187 *)
Definition kq_encode (e : N) (dir : bool) : N :=
  let o := e .&^ Create kqueue in
  let o := if (nonzero (e .& Create kqueue) && dir) || nonzero (e .& Write kqueue)
           then (o .&^ Write kqueue) .| NoteWrite else o in
  let o := if nonzero (e .& Rename kqueue) then (o .&^ Rename kqueue) .| NoteRename else o in
  if nonzero (e .& Remove kqueue) then (o .&^ Remove kqueue) .| NoteDelete else o.
(** /repo/watcher_fen.go:127-144; [^Rename & ^Remove &^ ...] is a 32-bit constant. *)
Definition fen_encode (e : N) (dir : bool) : N :=
  let o := e .&^ Create fen in
  let o := if (nonzero (e .& Create fen) && dir) || nonzero (e .& Write fen)
           then (o .&^ Write fen) .| FileModified else o in
  o .& (all32 .&^ Rename fen .&^ Remove fen .&^ FileDelete .&^ FileRenameTo .&^ FileRenameFrom .&^ Unmounted .&^ MountedOver).
(** /repo/watcher_kqueue.go:188-196 *)
Definition kq_nat2not : list (N * N) :=
  [(NoteWrite, Write kqueue); (NoteRename, Rename kqueue); (NoteDelete, Remove kqueue);
   (NoteExtend, 0); (NoteAttrib, 0); (NoteRevoke, 0); (NoteLink, 0)].
(** /repo/watcher_fen.go:145-156 *)
Definition fen_nat2not : list (N * N) :=
  [(FileModified, Write fen); (FileRenameFrom, Rename fen); (FileDelete, Remove fen);
   (FileAccess, 0); (FileAttrib, 0); (FileRenameTo, 0); (FileTrunc, 0); (FileNoFollow, 0); (Unmounted, 0); (MountedOver, 0)].
(** /repo/watcher_trigger.go:182-195; [m] is the map in the order it is ranged over. *)
Definition decode_step (o w : N) (e : N) (fn : N * N) : N :=
  let '(f, n) := fn in
  if nonzero (o .& f) then
    let e := if nonzero (w .& f) then e .| f else e in
    if nonzero (w .& n) then e .| n else e
  else e.
Definition decode (m : list (N * N)) (o w : N) : N := foldl (decode_step o w) 0 m.

(** The platform part: constants, encode, nat2not, not2nat (/repo/watcher_kqueue.go:197-201,
    /repo/watcher_fen.go:157-161), and whether a watched file is an open descriptor
    (kqueue) or known by its name (FEN). *)
Record trig := Trig {
  t_plat : platform;
  t_encode : N → bool → N;
  t_nat2not : list (N * N);
  t_write : N; t_rename : N; t_remove : N;
  t_fds : bool;
}.
Definition kq : trig := Trig kqueue kq_encode kq_nat2not NoteWrite NoteRename NoteDelete true.
Definition fn : trig := Trig fen fen_encode fen_nat2not FileModified FileRenameFrom FileDelete false.

(** ** State *)
(** /repo/watcher_trigger.go:63-72 with /repo/watcher_kqueue.go:40-44; [tw_dir] is
    fi.IsDir(). *)
Record tw := TW { tw_p : str; tw_dir : bool; tw_eDir : N; tw_eNonDir : N; tw_fd : nat }.
Definition tw_e (w : tw) : N := tw_eDir w .| tw_eNonDir w.
(** What the OS knows a watched file by: a descriptor or a name. *)
Notation ident := (nat + str)%type.
(** pthLkp (/repo/watcher_trigger.go:88-99), idLkp (/repo/watcher_kqueue.go:26-37); the
    structures are identified by numbers.  Of the OS: the descriptors opened by
    NewWatched and not closed, and the mask registered for each file.  [ts_stray]: the
    descriptors that were closed while they were not open.
    Simplification (FEN): one association per name. *)
Record tstate := TS {
  ts_heap : gmap nat tw;
  ts_path : gmap str nat;
  ts_id : gmap nat nat;
  ts_next : nat;
  ts_open : gset nat;
  ts_reg : gmap ident N;
  ts_stray : list nat;
}.
Definition ts_init : tstate := TS ∅ ∅ ∅ 0 ∅ ∅ [].
Definition set_tw (s : tstate) (i : nat) (w : tw) : tstate :=
  TS (<[i := w]> (ts_heap s)) (ts_path s) (ts_id s) (ts_next s) (ts_open s) (ts_reg s) (ts_stray s).
Definition set_reg (s : tstate) (r : gmap ident N) : tstate :=
  TS (ts_heap s) (ts_path s) (ts_id s) (ts_next s) (ts_open s) r (ts_stray s).

(** Answers of the OS during one critical section.  [a_fd]: the descriptor open(2)
    returns when those in the argument are in use. *)
Inductive newans := NewOk | NewSkip | NewNotExist | NewErr.
Inductive sysans := SOk | SNotExist | SErr.
(** os.FileInfo of a directory entry: name and whether it is a directory *)
Record finfo := FI { fi_name : str; fi_dir : bool }.
Record answers := Ans {
  a_fd : gset nat → nat;
  a_new : str → newans;           (* open in NewWatched *)
  a_watch : str → sysans;         (* kevent EV_ADD, port_associate *)
  a_unwatch : str → sysans;       (* kevent EV_DELETE, port_dissociate *)
  a_ls : str → option (list finfo);  (* os.Open and Readdir *)
}.
(** Results of the functions: nil, errAlreadyWatched, errNotWatched, an error os.IsNotExist
    recognises, another one. *)
Inductive res := ROk | RAlready | RNotWatched | RNotExist | RErr.
#[global] Instance res_eq_dec : EqDecision res.
Proof. solve_decision. Defined.
Definition res_of (a : sysans) : res := match a with SOk => ROk | SNotExist => RNotExist | SErr => RErr end.

Section trigger.
Context (T : trig).
Notation P := (t_plat T).

Definition ident_of (w : tw) : ident := if t_fds T then inl (tw_fd w) else inr (tw_p w).
(** The registration can be made: the descriptor is open. *)
Definition live (s : tstate) (w : tw) : bool := negb (t_fds T) || bool_decide (tw_fd w ∈ ts_open s).
(** trigger.Watch (/repo/watcher_kqueue.go:129-137, /repo/watcher_fen.go:107-109).  On a
    closed descriptor it fails whatever the answer. *)
Definition t_Watch (s : tstate) (A : answers) (i : nat) (e : N) : tstate * res :=
  match ts_heap s !! i with
  | None => (s, RErr)
  | Some w =>
      match a_watch A (tw_p w) with
      | SOk => if live s w then (set_reg s (<[ident_of w := e]> (ts_reg s)), ROk) else (s, RErr)
      | a => (s, res_of a)
      end
  end.
(** trigger.Unwatch (/repo/watcher_kqueue.go:120-126, /repo/watcher_fen.go:102-104).  It
    fails if nothing is registered. *)
Definition t_Unwatch (s : tstate) (A : answers) (i : nat) : tstate * res :=
  match ts_heap s !! i with
  | None => (s, RErr)
  | Some w =>
      match a_unwatch A (tw_p w) with
      | SOk => match ts_reg s !! ident_of w with
               | Some _ => (set_reg s (delete (ident_of w) (ts_reg s)), ROk)
               | None => (s, RNotExist)
               end
      | a => (s, res_of a)
      end
  end.
(** trigger.NewWatched (/repo/watcher_kqueue.go:59-79, /repo/watcher_fen.go:51-53) *)
Definition t_NewWatched (s : tstate) (A : answers) (p : str) (dir : bool) : tstate * (newans * nat) :=
  let i := ts_next s in
  if t_fds T then
    match a_new A p with
    | NewOk =>
        let fd := a_fd A (ts_open s) in
        (TS (<[i := TW p dir 0 0 fd]> (ts_heap s)) (ts_path s) (ts_id s) (S i) ({[fd]} ∪ ts_open s) (ts_reg s) (ts_stray s), (NewOk, i))
    | a => (s, (a, i))
    end
  else (TS (<[i := TW p dir 0 0 0]> (ts_heap s)) (ts_path s) (ts_id s) (S i) (ts_open s) (ts_reg s) (ts_stray s), (NewOk, i)).
(** trigger.Record (/repo/watcher_kqueue.go:82-84, /repo/watcher_fen.go:56-58) *)
Definition t_Record (s : tstate) (i : nat) : tstate :=
  match ts_heap s !! i with
  | None => s
  | Some w => TS (ts_heap s) (<[tw_p w := i]> (ts_path s)) (if t_fds T then <[tw_fd w := i]> (ts_id s) else ts_id s)
                 (ts_next s) (ts_open s) (ts_reg s) (ts_stray s)
  end.
(** trigger.Del (/repo/watcher_kqueue.go:87-91, /repo/watcher_fen.go:61-63).  Closing a
    descriptor drops what is registered for it. *)
Definition t_Del (s : tstate) (i : nat) : tstate :=
  match ts_heap s !! i with
  | None => s
  | Some w =>
      if t_fds T then
        TS (ts_heap s) (delete (tw_p w) (ts_path s)) (delete (tw_fd w) (ts_id s)) (ts_next s)
           (ts_open s ∖ {[tw_fd w]}) (delete (inl (tw_fd w)) (ts_reg s))
           (if bool_decide (tw_fd w ∈ ts_open s) then ts_stray s else tw_fd w :: ts_stray s)
      else TS (ts_heap s) (delete (tw_p w) (ts_path s)) (ts_id s) (ts_next s) (ts_open s) (ts_reg s) (ts_stray s)
  end.
(** trigger.Watched (/repo/watcher_kqueue.go:152-161, /repo/watcher_fen.go:74-85) *)
Definition t_Watched (s : tstate) (k : ident) : option nat :=
  match k with
  | inl fd => if t_fds T then ts_id s !! fd else None
  | inr p => if t_fds T then None else ts_path s !! p
  end.

(** ** The watcher *)
(** /repo/watcher_trigger.go:359-365 *)
Inductive mode := MDir | MNDir | MBoth.
Definition add_role (m : mode) (e : N) (w : tw) : tw :=
  match m with
  | MDir => TW (tw_p w) (tw_dir w) (tw_eDir w .| e) (tw_eNonDir w) (tw_fd w)
  | MNDir => TW (tw_p w) (tw_dir w) (tw_eDir w) (tw_eNonDir w .| e) (tw_fd w)
  | MBoth => TW (tw_p w) (tw_dir w) (tw_eDir w .| e) (tw_eNonDir w .| e) (tw_fd w)
  end.
Definition clear_role (m : mode) (w : tw) : tw :=
  match m with
  | MDir => TW (tw_p w) (tw_dir w) 0 (tw_eNonDir w) (tw_fd w)
  | MNDir => TW (tw_p w) (tw_dir w) (tw_eDir w) 0 (tw_fd w)
  | MBoth => TW (tw_p w) (tw_dir w) 0 0 (tw_fd w)
  end.
Definition upd_tw (s : tstate) (i : nat) (f : tw → tw) : tstate :=
  match ts_heap s !! i with Some w => set_tw s i (f w) | None => s end.
Definition events_of (s : tstate) (i : nat) : N := match ts_heap s !! i with Some w => tw_e w | None => 0 end.
(** /repo/watcher_trigger.go:161-172, the part after the structure is found or made *)
Definition single_do (s : tstate) (A : answers) (i : nat) (e : N) (m : mode) (dir : bool) : tstate * res :=
  let s := upd_tw s i (add_role m e) in
  t_Watch s A i (t_encode T (events_of s i) dir).
(** singlewatch (/repo/watcher_trigger.go:151-178) *)
Definition singlewatch (s : tstate) (A : answers) (p : str) (e : N) (m : mode) (dir : bool) : tstate * res :=
  match ts_path s !! p with
  | Some i => let '(s, r) := single_do s A i e m dir in (s, match r with ROk => RAlready | _ => r end)
  | None =>
      match t_NewWatched s A p dir with
      | (s, (NewOk, i)) =>
          let '(s, r) := single_do s A i e m dir in
          match r with ROk => (t_Record s i, ROk) | _ => (s, r) end
      | (s, (NewSkip, _)) => (s, ROk)
      | (s, (NewNotExist, _)) => (s, RNotExist)
      | (s, (NewErr, _)) => (s, RErr)
      end
  end.
(** singleunwatch (/repo/watcher_trigger.go:368-397) *)
Definition singleunwatch (s : tstate) (A : answers) (p : str) (m : mode) : tstate * res :=
  match ts_path s !! p with
  | None => (s, RNotWatched)
  | Some i =>
      let s := upd_tw s i (clear_role m) in
      match t_Unwatch s A i with
      | (s, ROk) =>
          match ts_heap s !! i with
          | None => (s, RErr)
          | Some w =>
              if nonzero (tw_e w) then
                let mod' := if nonzero (tw_eNonDir w) then MNDir else MDir in
                let '(s, r) := singlewatch s A p (tw_e w) mod' (tw_dir w) in
                (s, match r with RAlready => ROk | _ => r end)
              else (t_Del s i, ROk)
          end
      | (s, r) => (s, r)
      end
  end.
Definition join : str → str → str := Inotify.fjoin.
(** walk (/repo/watcher_trigger.go:221-237) with the function given: it stops at the first
    error. *)
Fixpoint walk_fold (f : tstate → finfo → tstate * res) (s : tstate) (ls : list finfo) : tstate * res :=
  match ls with
  | [] => (s, ROk)
  | fi :: ls => match f s fi with (s, ROk) => walk_fold f s ls | (s, r) => (s, r) end
  end.
Definition walk (s : tstate) (A : answers) (p : str) (f : tstate → finfo → tstate * res) : tstate * res :=
  match a_ls A p with None => (s, RErr) | Some ls => walk_fold f s ls end.
(** watch (/repo/watcher_trigger.go:197-218) *)
Definition watch_entry (A : answers) (p : str) (e : N) (s : tstate) (fi : finfo) : tstate * res :=
  let '(s, r) := singlewatch s A (join p (fi_name fi)) e MNDir (fi_dir fi) in
  (s, match r with RAlready => ROk | _ => r end).
Definition trg_watch (s : tstate) (A : answers) (p : str) (e : N) (dir : bool) : tstate * res :=
  match singlewatch s A p e MDir dir with
  | (s, (ROk | RAlready)) => if dir then walk s A p (watch_entry A p e) else (s, ROk)
  | (s, r) => (s, r)
  end.
(** unwatch (/repo/watcher_trigger.go:239-253) *)
Definition unwatch_entry (A : answers) (p : str) (s : tstate) (fi : finfo) : tstate * res :=
  let '(s, r) := singleunwatch s A (join p (fi_name fi)) MNDir in
  (s, match r with RNotWatched => ROk | _ => r end).
Definition trg_unwatch (s : tstate) (A : answers) (p : str) (dir : bool) : tstate * res :=
  let '(s, r) := if dir then walk s A p (unwatch_entry A p) else (s, ROk) in
  match r with ROk => singleunwatch s A p MDir | _ => (s, r) end.
(** Watch, Unwatch, Rewatch (/repo/watcher_trigger.go:256-295); [st] is the answer of
    os.Stat, [A'] the answers during the second half of Rewatch. *)
Definition trg_Watch (s : tstate) (st : option bool) (A : answers) (p : str) (e : N) : tstate * res :=
  match st with None => (s, RErr) | Some d => trg_watch s A p e d end.
Definition trg_Unwatch (s : tstate) (st : option bool) (A : answers) (p : str) : tstate * res :=
  match st with None => (s, RErr) | Some d => trg_unwatch s A p d end.
Definition trg_Rewatch (s : tstate) (st : option bool) (A A' : answers) (p : str) (e : N) : tstate * res :=
  match st with
  | None => (s, RErr)
  | Some d => match trg_unwatch s A p d with
              | (s, ROk) => ((trg_watch s A' p e d).1, ROk)
              | (s, _) => (s, ROk)
              end
  end.

(** ** Events *)
(** /repo/event_trigger.go:10-15 without the native event *)
Record tevent := TE { te_p : str; te_e : N; te_dir : bool }.
Definition has_prefix (pre p : str) : bool := bool_decide (take (length pre) p = pre).
Definition native_gone : N := t_rename T .| t_remove T.
(** One iteration of the loop over pthLkp (/repo/watcher_trigger.go:315-329); [k] is the
    key.  Keys deleted by an iteration are not visited: an iteration deletes only its own. *)
Definition dir_moved1 (A : answers) (w : tw) (e : N) (acc : tstate * list tevent) (k : str) : tstate * list tevent :=
  let '(s, evn) := acc in
  if has_prefix (tw_p w ++ [slash]) k then
    let s := (singleunwatch s A k MBoth).1 in
    (s, if nonzero (tw_e w .& (t_rename T .| Rename P)) then evn ++ [TE k (tw_e w .& e .&^ Write P .&^ t_write T) (tw_dir w)] else evn)
  else (s, evn).
(** One iteration of the rescan (/repo/watcher_trigger.go:335-348) *)
Definition rescan1 (A : answers) (w : tw) (acc : tstate * list tevent) (fi : finfo) : tstate * list tevent :=
  let '(s, evn) := acc in
  let p := join (tw_p w) (fi_name fi) in
  let '(s, r) := singlewatch s A p (tw_eDir w) MNDir (fi_dir fi) in
  (s, if bool_decide (r = RNotExist) && nonzero (tw_eDir w .& Remove P) then evn ++ [TE p (Remove P) (fi_dir fi)]
      else match r with
           | RAlready => evn
           | ROk => if nonzero (tw_eDir w .& Create P) then evn ++ [TE p (Create P) (fi_dir fi)] else evn
           | _ => evn
           end).
(** dir (/repo/watcher_trigger.go:302-357); [ord] is the order in which the map is ranged
    over. *)
Definition trg_dir (s : tstate) (A : answers) (ord : list str) (i : nat) (w : tw) (e ge : N) : tstate * list tevent :=
  if nonzero (ge .& native_gone) then
    let evn := [TE (tw_p w) (e .&^ Write P .&^ t_write T) true] in
    let '(s, evn) := if nonzero (ge .& t_rename T) then foldl (dir_moved1 A w e) (s, evn) ord else (s, evn) in
    (t_Del s i, evn)
  else if nonzero (ge .& t_write T) then
    match a_ls A (tw_p w) with
    | None => (s, [])
    | Some ls => foldl (rescan1 A w) (s, []) ls
    end
  else (s, []).
(** process (/repo/watcher_trigger.go:419-454).  [st]: os.Stat of the path.  The structure
    [w] is read again where the code reads its fields after they may have changed: they
    do not change before dir is called.  FEN drops an association when it reports. *)
Definition trg_process (s : tstate) (st : option bool) (A : answers) (ord : list str) (k : ident) (ge : N) : tstate * list tevent :=
  let s := if t_fds T then s else set_reg s (delete k (ts_reg s)) in
  match t_Watched s k with
  | None => (s, [])
  | Some i =>
      match ts_heap s !! i with
      | None => (s, [])
      | Some w =>
          let e := decode (t_nat2not T) ge (tw_e w) in
          let s :=
            if ge .& native_gone =? 0 then
              match st with
              | None => s
              | Some d => match t_Watch s A i (t_encode T (tw_e w) d) with
                          | (s, ROk) => s
                          | (s, _) => t_Del s i
                          end
              end
            else s in
          if (e =? 0) && (negb (tw_dir w) || (ge .& t_write T =? 0)) then (s, [])
          else
            let '(s, evn) := if tw_dir w then trg_dir s A ord i w e ge else (s, [TE (tw_p w) e (tw_dir w)]) in
            (if nonzero (ge .& native_gone) then t_Del s i else s, evn)
      end
  end.

(** ** Histories: the calls of the tree and the events the monitor goroutine gets, each
    under the lock (/repo/watcher_trigger.go:261,273,287,420). *)
Inductive tlabel :=
  | TWatch (st : option bool) (A : answers) (p : str) (e : N) (r : res)
  | TUnwatch (st : option bool) (A : answers) (p : str) (r : res)
  | TRewatch (st : option bool) (A A' : answers) (p : str) (e : N) (r : res)
  | TEvent (st : option bool) (A : answers) (ord : list str) (k : ident) (ge : N) (evn : list tevent).
Inductive tstep (s : tstate) : tlabel → tstate → Prop :=
  | StWatch st A p e s' r : trg_Watch s st A p e = (s', r) → tstep s (TWatch st A p e r) s'
  | StUnwatch st A p s' r : trg_Unwatch s st A p = (s', r) → tstep s (TUnwatch st A p r) s'
  | StRewatch st A A' p e s' r : trg_Rewatch s st A A' p e = (s', r) → tstep s (TRewatch st A A' p e r) s'
  | StEvent st A ord k ge s' evn : ord ≡ₚ (map_to_list (ts_path s)).*1 →
      trg_process s st A ord k ge = (s', evn) → tstep s (TEvent st A ord k ge evn) s'.
(** open(2) returns a descriptor that is not in use. *)
Definition fresh_fd (A : answers) : Prop := ∀ X, a_fd A X ∉ X.
Definition label_ok (l : tlabel) : Prop :=
  match l with
  | TWatch _ A _ _ _ | TUnwatch _ A _ _ | TEvent _ A _ _ _ _ => fresh_fd A
  | TRewatch _ A A' _ _ _ => fresh_fd A ∧ fresh_fd A'
  end.
Inductive texec : list tlabel → tstate → Prop :=
  | texec_init : texec [] ts_init
  | texec_step tr s l s' : texec tr s → label_ok l → tstep s l s' → texec (tr ++ [l]) s'.

End trigger.
