(** * SpecWinApi: the library on Windows, from the arguments of Watch to the records of the OS *)
From Verif Require Import Base Event Watchpoint Paths PathsFacts Loop Node NonRec Rec Clean SpecTree SpecNonRec SpecOS SpecRec Api
  Readdcw SpecReaddcw SpecWin WinPath SpecWinPath WinApi.
Local Open Scope N_scope.

Notation wtrace := (list (wacall * outcome)).
Notation wfile := (rpath bslash true wvolume).
(** A call of Watch that asks for nothing, or for nobody. *)
Definition wvain (o : wacall) : Prop :=
  match o with WAWatch _ _ None _ => True | WAWatch _ _ _ [] => True | _ => False end.
(** [p] is the path of the existing file [q], which is not a symlink, with or without the
    suffix "...". *)
Definition wdenotes (o : winos) (p : str) (isrec : bool) (q : path) : Prop :=
  wlocated o p isrec q ∧ w_lstat o (wtext q) = Some WPlain.
(** The calls considered: not on a symlink (see C78), and not on the root directory of a
    volume (see C30). *)
Definition wacall_ok (o : wacall) : Prop :=
  match o with
  | WAWatch o p _ events =>
      full_ok o ∧ (∀ isrec q t, wlocated o p isrec q → w_lstat o (wtext q) ≠ Some (WLink t)) ∧ (∀ isrec v, ¬ wdenotes o p isrec [v]) ∧
      Forall (λ e, u32 e ∧ user_ev readdcw e) events
  | WAStop _ => True
  end.
(** Channel [n] has asked for event bit [i] on the file [q], and for the subtree of [q]. *)
Definition wsubscribed (tr : wtrace) (n : positive) (q : path) (i : N) : Prop :=
  ∃ tr1 tr2 o p isrec events,
    tr = tr1 ++ (WAWatch o p (Some n) events, ORet ROk) :: tr2 ∧
    wdenotes o p isrec q ∧ (∃ e, e ∈ events ∧ has e i) ∧ ∀ r, (WAStop n, r) ∉ tr2.
Definition wsubscribed_rec (tr : wtrace) (n : positive) (q : path) : Prop :=
  ∃ tr1 tr2 o p events,
    tr = tr1 ++ (WAWatch o p (Some n) events, ORet ROk) :: tr2 ∧
    wdenotes o p true q ∧ events ≠ [] ∧ ∀ r, (WAStop n, r) ∉ tr2.
Definition wsubscribed_all (tr : wtrace) (n : positive) (q : path) (ev : N) : Prop := ∀ i, has ev i → wsubscribed tr n q i.
(** ... to all of [ev] on the entry [c] of [d], or on [d], or on a directory further above
    for which it has also asked for the subtree. *)
Definition wreaches (tr : wtrace) (n : positive) (ev : N) (d : path) (c : str) : Prop :=
  wsubscribed_all tr n (d ++ [c]) ev ∨ wsubscribed_all tr n d ev ∨
  ∃ a, a `prefix_of` d ∧ a ≠ d ∧ a ≠ [] ∧ wsubscribed_all tr n a ev ∧ wsubscribed_rec tr n a.

(** Orderly histories, as in SpecRec and SpecMacApi. *)
Definition wwanted (tr : wtrace) (but : option positive) (q : path) (i : N) : Prop :=
  ∃ m, Some m ≠ but ∧ wsubscribed tr m q i.
Definition wwanted_below (tr : wtrace) (but : option positive) (q : path) (i : N) : Prop :=
  ∃ q', above q q' ∧ wwanted tr but q' i.
Definition worderly (tr : wtrace) (m : ostab) (o : wacall) : Prop :=
  match o with
  | WAWatch o x _ events =>
      (∃ e, e ∈ events ∧ e ≠ 0) ∧
      ∀ isrec p, wdenotes o x isrec p →
        (∀ q set, wfile q → q `prefix_of` p → q ≠ p ∨ isrec = true → m !! nameof bslash true q = Some (set, false) →
          ∃ e j, e ∈ events ∧ has e j ∧ ¬ has set j) ∧
        (∀ q, wfile q → above p q → is_Some (m !! nameof bslash true q) →
          ∃ n, (∃ i, wsubscribed tr n q i) ∨ wsubscribed_rec tr n q)
  | WAStop n =>
      ∀ q, wfile q → is_Some (m !! nameof bslash true q) →
        (∀ i, wwanted_below tr None q i → wwanted_below tr (Some n) q i) ∨
        (∃ i, wwanted tr None q i ∧ ¬ wwanted tr (Some n) q i) ∨
        (∀ i, wwanted tr None q i → wwanted_below tr (Some n) q i)
  end.
(** The environments: filepath.VolumeName is the one of WinPath. *)
Record waenv (E : env) : Prop := {
  we_plat : e_plat E = readdcw;
  we_sep : e_sep E = bslash;
  we_vol : e_vol E = volname;
  we_ok : env_ok E;
}.
Inductive waexec : wtrace → st → Prop :=
  | wx_init : waexec [] init_st
  | wx_call tr s E o s' r :
      waexec tr s → waenv E → obliging readdcw E →
      (¬ wvain o → wacall_ok o ∧ worderly tr (os_watches (st_log s)) o) →
      wastep E s o = (s', r) → waexec (tr ++ [(o, r)]) s'.
(** The calls, and the watcher after what the tree asked of it and what the OS handed it
    in between. *)
Record win_api (tr : wtrace) (s : st) (rtr : list rlabel) (rs : rstate) : Prop := {
  wa_calls : waexec tr s;
  wa_drives : wdrives (st_log s) rtr;
  wa_run : rdorderly rtr rs;
}.
(** A handle on the directory [p], for which no operation is in progress; a record on it
    names [r], below [p]: the entry [c] of [d]. *)
Record wrecord (rs : rstate) (g : nat) (isdir : bool) (p r d : path) (c : str) : Prop := {
  wr_file : wfile p;
  wr_name : r ≠ [] ∧ Forall (λ x, x ≠ [] ∧ x ≠ dot ∧ x ≠ dotdot ∧ slash ∉ x ∧ bslash ∉ x) r;
  wr_entry : d ++ [c] = p ++ r;
  wr_handle : handle rs (nameof bslash true p) g isdir;
  wr_rest : ¬ in_progress rs (nameof bslash true p);
}.
