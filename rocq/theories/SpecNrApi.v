(** * SpecNrApi: the platforms with the non-recursive tree, from the arguments of Watch, on a changing filesystem *)
From Verif Require Import Base Event Watchpoint Paths PathsFacts Loop Node NonRec Rec Clean SpecClean SpecTree SpecNonRec SpecNonRecOS SpecOS
  SpecRec Api SpecApi.
Local Open Scope N_scope.

Notation atrace := (list (acall * outcome)).
Section hist.
Context (P : platform).
(** Some event is named; nobody asks for the subtree of the root directory; the kernel
    may refuse what a plain Watch asks it for, and nothing else. *)
Definition call_good (E : env) (o : acall) : Prop :=
  match o with
  | AWatch fs cwd p _ events =>
      (∃ e, e ∈ events ∧ e ≠ 0) ∧ ((∃ x, p = x ++ b "...") → reliable E ∧ ¬ denotes fs cwd p true [])
  | AStop _ | AEvent _ _ => reliable E
  end.
(** Somebody passed Watch a path that denotes [p] or something below it, and [p] was not
    removed since. *)
Definition atouched (tr : atrace) (p : path) : Prop :=
  ∃ tr1 fs cwd x n events r tr2 isrec q, tr = tr1 ++ (AWatch fs cwd x (Some n) events, ORet r) :: tr2 ∧ events ≠ [] ∧
    denotes fs cwd x isrec q ∧ p `prefix_of` q ∧
    (∀ a r', (AEvent (Remove P) a, r') ∈ tr2 → ¬ a `prefix_of` p).
(** Histories on a changing filesystem, [D] being its directories: calls of Watch and
    Stop with their outcomes; the creation of a directory (possibly with directories
    inside), to which no path passed to Watch before led, and the processing of its
    event; the removal of a directory with all its contents and the processing of its
    event. *)
Inductive lexec : atrace → gset path → st → Prop :=
  | lx_init D : dirs_ok slash D → lexec [] D init_st
  | lx_call tr D s E o s' r :
      lexec tr D s → nenv P slash E → (∀ ev p, o ≠ AEvent ev p) →
      (¬ vain o → acall_ok P o ∧ call_good E o ∧ fs_env slash D E) →
      astep nr_api E s o = (s', r) → lexec (tr ++ [(o, r)]) D s'
  | lx_mkdir tr D D' p s E s' r :
      lexec tr D s → nenv P slash E → reliable E → dirs_ok slash D' → fs_env slash D' E →
      p ∈ D' → D ⊆ D' → (∀ q, q ∈ D' → q ∉ D → p `prefix_of` q) → p ∉ D → ¬ atouched tr p →
      astep nr_api E s (AEvent (Create P) p) = (s', r) → lexec (tr ++ [(AEvent (Create P) p, r)]) D' s'
  | lx_rmdir tr D D' p s E s' r :
      lexec tr D s → nenv P slash E → reliable E → gpath slash p →
      (∀ q, q ∈ D' ↔ q ∈ D ∧ ¬ p `prefix_of` q) →
      astep nr_api E s (AEvent (Remove P) p) = (s', r) → lexec (tr ++ [(AEvent (Remove P) p, r)]) D' s'.

(** A Watch of [n] on a path of the form "x..." that denotes [a], in force, named all of
    the event [g]. *)
Definition watches_below (tr : atrace) (n : positive) (a : path) (g : N) : Prop :=
  ∃ tr1 tr2 fs cwd p events,
    tr = tr1 ++ (AWatch fs cwd p (Some n) events, ORet ROk) :: tr2 ∧ denotes fs cwd p true a ∧
    (∀ j, has g j → ∃ e, e ∈ events ∧ has e j) ∧ kept P tr2 n a.
End hist.
