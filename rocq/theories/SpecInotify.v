(** * SpecInotify: vocabulary for the inotify properties *)
From Verif Require Import Base Event Paths Clean Inotify.
Local Open Scope N_scope.

(** ** Generic events and the raw inotify bits they stand for (documentation of
    notify: Create = file created or moved in, Remove = deleted, Write = modified,
    Rename = moved away). *)
Definition generics : list (N * N) := [
  (ICreate, 0x100 .| 0x80); (IRemove, 0x200 .| 0x400); (IWrite, 0x2); (IRename, 0x40 .| 0x800)].
(** [asks e i]: the requested set [e] asks for raw bit [i], natively or through a
    generic event. *)
Definition asks (e i : N) : Prop :=
  (has e i ∧ ¬ has (All linux) i) ∨ ∃ g n, (g, n) ∈ generics ∧ incl_ev g e ∧ has n i.
(** A set accepted by the watcher: generic events and inotify's own. *)
Definition known (e : N) : Prop := incl_ev e (All linux .| 0xfff).

(** ** The bytes the kernel writes for one record (inotify(7)) *)
Definition le4 (n : N) : str := [ascii_of_N (n mod 256); ascii_of_N (n / 256 mod 256);
  ascii_of_N (n / 65536 mod 256); ascii_of_N (n / 16777216 mod 256)].
Definition two32 (z : Z) : N := Z.to_N (z mod 2 ^ 32)%Z.
(** A name is followed by [pad] NUL bytes, both counted by the length field; there is
    no name for records about the watched object itself. *)
Definition record_bytes (r : raw) (pad : nat) : str :=
  le4 (two32 (r_wd r)) ++ le4 (r_mask r) ++ le4 (r_cookie r) ++ le4 (N.of_nat (length (r_name r) + pad)) ++
  r_name r ++ repeat nul pad.
Definition raw_ok (x : raw * nat) : Prop :=
  let '(r, pad) := x in
  (- 2 ^ 31 ≤ r_wd r < 2 ^ 31)%Z ∧ u32 (r_mask r) ∧ u32 (r_cookie r) ∧ nul ∉ r_name r ∧
  u32 (N.of_nat (length (r_name r) + pad)).

(** ** Histories of one watcher *)
Inductive iop :=
  | IWatch (p : str) (e : N)       (* Watch, or Rewatch with this new set *)
  | IUnwatch (p : str)
  | IClose
  | IGone (ino : positive).        (* the kernel drops an inode *)
(** What the outside does during a step: whether the other system calls succeed, the
    inode found at the path, and Go's map order. *)
Record ienv := IEnv {
  ie_ok : bool;
  ie_ino : option positive;
  ie_ord : list (Z * watched) → list (Z * watched);
}.
Definition ienv_ok (E : ienv) : Prop := ∀ l, ie_ord E l ≡ₚ l.
Definition istep (E : ienv) (s : ist) (o : iop) : ist * bool :=
  match o with
  | IWatch p e => i_watch (ie_ok E) (ie_ino E) s p e
  | IUnwatch p => i_unwatch (ie_ord E) (ie_ok E) s p
  | IClose => (i_close s, true)
  | IGone ino => (k_gone s ino, true)
  end.
Notation itrace := (list (ienv * iop * bool)).
Inductive iexec : itrace → ist → Prop :=
  | iexec_init : iexec [] inew
  | iexec_step tr s E o s' r :
      iexec tr s → ienv_ok E → istep E s o = (s', r) → iexec (tr ++ [(E, o, r)]) s'.

(** What is watched according to the calls that returned nil. *)
Definition tab_step (t : gmap str N) (x : ienv * iop * bool) : gmap str N :=
  match x with
  | (_, IWatch p e, true) => <[p := e]> t
  | (_, IUnwatch p, true) => delete p t
  | (_, IClose, _) => ∅
  | _ => t
  end.
Definition itab (tr : itrace) : gmap str N := foldl tab_step ∅ tr.

(** The file each watched path named when it was watched, and whether that file still
    exists. *)
Definition file_step (t : gmap str (positive * bool)) (x : ienv * iop * bool) : gmap str (positive * bool) :=
  match x with
  | (E, IWatch p _, true) => match ie_ino E with Some i => <[p := (i, true)]> t | None => t end
  | (_, IUnwatch p, true) => delete p t
  | (_, IClose, _) => ∅
  | (_, IGone i, _) => (λ y, (y.1, y.2 && bool_decide (y.1 ≠ i))) <$> t
  | _ => t
  end.
Definition ifile (tr : itrace) : gmap str (positive * bool) := foldl file_step ∅ tr.
(** Orderly histories: a path that is watched and watched again still names the same
    existing file, and no two watched paths name the same file.  Files may be removed,
    and a path watched anew after its watch was withdrawn. *)
Definition orderly (tr : itrace) : Prop :=
  ∀ tr1 E p e i tr2, tr = tr1 ++ (E, IWatch p e, true) :: tr2 → ie_ino E = Some i →
    (∀ x, ifile tr1 !! p = Some x → x = (i, true)) ∧ (∀ q, q ≠ p → ifile tr1 !! q ≠ Some (i, true)).

(** The record the kernel queues when something (one raw bit [ev], perhaps flagged as
    concerning a directory) happens to file [ino] or to the entry [name] in it: one
    iff the file has a descriptor whose mask contains the bit. *)
Definition kernel_reports (s : ist) (ino : positive) (ev : N) (isdir : bool) (cookie : N) (name : str) (r : raw) : Prop :=
  ∃ wd m, i_k s !! wd = Some (KW ino m) ∧ ev .& m ≠ 0 ∧
    r = Raw wd (ev .| if isdir then 0x40000000 else 0) cookie name.
