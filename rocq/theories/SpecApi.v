(** * SpecApi: histories of API calls *)
From Verif Require Import Base Event Watchpoint Paths PathsFacts Loop Node NonRec Rec Clean SpecClean SpecTree SpecNonRec SpecRec Api.
Local Open Scope N_scope.

(** What happens to the library: a call of Watch with the given arguments, in the
    given filesystem and working directory; a call of Stop; the processing of a
    directory event reported by the OS. *)
Inductive acall :=
  | AWatch (fs : fsys) (cwd : option str) (p : str) (c : option positive) (events : list N)
  | AStop (n : positive)
  | AEvent (ev : N) (p : path).
Definition astep (A : api) (E : env) (s : st) (o : acall) : st * outcome :=
  match o with
  | AWatch fs cwd p c events => api_Watch A E fs cwd s p c events
  | AStop n => (api_Stop A E s n, ORet ROk)
  | AEvent ev p => (a_dir A E s ev p, ORet ROk)
  end.

(** A call of Watch that asks for nothing, or for nobody. *)
Definition vain (o : acall) : Prop :=
  match o with AWatch _ _ _ None _ => True | AWatch _ _ _ _ [] => True | _ => False end.
Global Instance vain_dec o : Decision (vain o).
Proof. destruct o as [fs cwd p [n|] [|e l]| |]; apply _. Defined.

(** [p] is the path of the file [q], with or without the suffix "...", by the
    filesystem [fs], for a process in directory [cwd]. *)
Definition denotes (fs : fsys) (cwd : option str) (p : str) (isrec : bool) (q : path) : Prop :=
  ∃ p' a, p = p' ++ (if isrec then b "..." else []) ∧ (isrec = false → ∀ x, p ≠ x ++ b "...") ∧
    abs cwd p' = Some a ∧ resolves fs [] (splits a) q ∧ real fs q.

Section hist.
Context (P : platform).
(** The calls considered.  [root_links_ok] excludes the filesystems on which
    [cleanpath] goes wrong, see C15. *)
Definition acall_ok (o : acall) : Prop :=
  match o with
  | AWatch fs cwd p _ events =>
      fs_ok fs ∧ root_links_ok fs ∧ (∀ w, cwd = Some w → isabs w = true) ∧
      Forall (λ e, u32 e ∧ user_ev P e) events
  | AStop _ => True
  | AEvent _ p => gpath slash p
  end.
(** No event processing, and no Watch on the root directory. *)
Definition acall_rec_ok (o : acall) : Prop :=
  acall_ok o ∧
  match o with
  | AWatch fs cwd p _ _ => ∀ isrec, ¬ denotes fs cwd p isrec []
  | AStop _ => True
  | AEvent _ _ => False
  end.

Notation trace := (list (acall * outcome)).
(** [aexec tr s]: starting from the empty tree, the calls of [tr] may end as [tr]
    says and lead to state [s].  [envs]: the environments; [ok]: the calls, unless in
    vain, which are unrestricted; [live]: the states considered. *)
Inductive aexec (A : api) (envs : env → Prop) (ok : acall → Prop) (live : st → Prop) : trace → st → Prop :=
  | aexec_init : aexec A envs ok live [] init_st
  | aexec_step tr s E o s' r :
      aexec A envs ok live tr s → envs E → (¬ vain o → ok o) → astep A E s o = (s', r) → live s' →
      aexec A envs ok live (tr ++ [(o, r)]) s'.
(** Linux, BSD, Solaris. *)
Definition aexec_nr : trace → st → Prop := aexec nr_api (nenv P slash) acall_ok (λ _, True).
(** macOS; histories in which the tree does not panic. *)
Definition aexec_rec : trace → st → Prop :=
  aexec rec_api (renv P slash false (λ _, False)) acall_rec_ok (λ s, st_panic s = false).

(** No watcher refused a plain Watch; no watcher refused any Watch. *)
Definition not_refused (tr : trace) : Prop :=
  Forall (λ '(o, r), ∀ fs cwd p n l, o = AWatch fs cwd p (Some n) l → (∃ x, p = x ++ b "...") ∨ ∀ r', r = ORet r' → r' = ROk) tr.
Definition never_refused (tr : trace) : Prop :=
  Forall (λ '(_, r), ∀ r', r = ORet r' → r' = ROk) tr.

(** Channel [n] has asked for event bit [i] on the file [q]: a successful Watch named
    an event with this bit, its path denoted [q], and since then [n] was not stopped and
    no directory at or above [q] was removed. *)
Definition kept (tr : trace) (n : positive) (q : path) : Prop :=
  (∀ r, (AStop n, r) ∉ tr) ∧ (∀ p r, (AEvent (Remove P) p, r) ∈ tr → ¬ p `prefix_of` q).
Definition subscribed (tr : trace) (n : positive) (q : path) (i : N) : Prop :=
  ∃ tr1 tr2 fs cwd p isrec events,
    tr = tr1 ++ (AWatch fs cwd p (Some n) events, ORet ROk) :: tr2 ∧
    denotes fs cwd p isrec q ∧ (∃ e, e ∈ events ∧ has e i) ∧ kept tr2 n q.
(** ... and it has asked for the subtree of [q]. *)
Definition subscribed_rec (tr : trace) (n : positive) (q : path) : Prop :=
  ∃ tr1 tr2 fs cwd p events,
    tr = tr1 ++ (AWatch fs cwd p (Some n) events, ORet ROk) :: tr2 ∧
    denotes fs cwd p true q ∧ events ≠ [] ∧ kept tr2 n q.
(** All bits of [ev]. *)
Definition subscribed_all (tr : trace) (n : positive) (q : path) (ev : N) : Prop :=
  ∀ i, has ev i → subscribed tr n q i.
End hist.
