(** * SpecMacApi: the library on macOS, from the arguments of Watch to FSEvents *)
From Verif Require Import Base Event Watchpoint Paths PathsFacts Loop Node NonRec Rec Clean SpecClean SpecTree SpecNonRec SpecOS
  SpecRec Api SpecApi Fsev SpecFsev SpecMac.
Local Open Scope N_scope.

Notation atrace := (list (acall * outcome)).
(** Somebody, or somebody other than [n], has asked for event bit [i] on the file [q], or
    strictly below it. *)
Definition wanted (tr : atrace) (but : option positive) (q : path) (i : N) : Prop :=
  ∃ m, Some m ≠ but ∧ subscribed fsevents tr m q i.
Definition wanted_below (tr : atrace) (but : option positive) (q : path) (i : N) : Prop :=
  ∃ q', above q q' ∧ wanted tr but q' i.
(** The calls considered, as in [SpecRec.orderly]; [m]: what the OS watches.  Watch names
    an event; if a file above is watched by the OS for all these events then
    recursively, and so is the file itself if the path ends in "..."; what the OS watches
    below, somebody has asked for.  Stop: for every watched file, every event wanted
    below it stays wanted below; or some event wanted at it does not stay wanted at it;
    or every event wanted at it stays wanted below. *)
Definition orderly_call (tr : atrace) (m : ostab) (o : acall) : Prop :=
  match o with
  | AWatch fs cwd x _ events =>
      (∃ e, e ∈ events ∧ e ≠ 0) ∧
      ∀ isrec p, denotes fs cwd x isrec p →
        (∀ q set, gpath slash q → q `prefix_of` p → q ≠ p ∨ isrec = true → m !! render slash q = Some (set, false) →
          ∃ e j, e ∈ events ∧ has e j ∧ ¬ has set j) ∧
        (∀ q, gpath slash q → above p q → is_Some (m !! render slash q) →
          ∃ n, (∃ i, subscribed fsevents tr n q i) ∨ subscribed_rec fsevents tr n q)
  | AStop n =>
      ∀ q, gpath slash q → is_Some (m !! render slash q) →
        (∀ i, wanted_below tr None q i → wanted_below tr (Some n) q i) ∨
        (∃ i, wanted tr None q i ∧ ¬ wanted tr (Some n) q i) ∨
        (∀ i, wanted tr None q i → wanted_below tr (Some n) q i)
  | AEvent _ _ => False
  end.
(** Histories of calls; the watcher refuses nothing that respects its preconditions. *)
Inductive mlexec : atrace → st → Prop :=
  | mx_init : mlexec [] init_st
  | mx_call tr s E o s' r :
      mlexec tr s → renv fsevents slash false (λ _, False) E → obliging fsevents E →
      (¬ vain o → acall_rec_ok fsevents o ∧ orderly_call tr (os_watches (st_log s)) o) →
      astep rec_api E s o = (s', r) → mlexec (tr ++ [(o, r)]) s'.
(** The calls, and the FSEvents watcher after what the tree asked of it and what the
    OS handed it in between. *)
Record mac_api (tr : atrace) (s : st) (m : fstab) : Prop := {
  ma_calls : mlexec tr s;
  ma_run : mac_run (st_log s) m;
}.
