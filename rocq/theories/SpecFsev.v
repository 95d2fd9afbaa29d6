(** * SpecFsev: what an FSEvents watch may forward *)
From Verif Require Import Base Event Paths PathsFacts Node SpecOS Fsev.
Local Open Scope N_scope.
Notation fslash := "/"%char.

(** An event of the OS, with the set of events and the kind the watch has when it is
    processed. *)
Record item := Item { it_events : N; it_isrec : bool; it_ev : fsevent }.
(** Processing a history, starting from a new watch. *)
Definition fs_run (x : fwatch) (l : list item) : fwatch * list (fsevent * N) :=
  foldl (λ '(y, out) i, let '(y, o) := dispatch1 (it_events i) (it_isrec i) y (it_ev i) in (y, out ++ o)) (x, []) l.
Definition fresh_watch (path : str) (events : N) (isrec : bool) : fwatch := FWatch ∅ path events isrec false.

(** The events of a history of batches and changes, each with the values in force. *)
Fixpoint history (e : N) (k : bool) (ops : list hop) : list item :=
  match ops with
  | [] => []
  | HBatch evs :: ops => (Item e k <$> evs) ++ history e k ops
  | HSet e k :: ops => history e k ops
  end.

(** Paths without empty components. *)
Definition clean (q : list str) : Prop := comps_ok fslash q ∧ [] ∉ q.
(** Well-formed events: a clean path and 32 bits of flags. *)
Definition clean_item (i : item) : Prop := ∃ q, clean q ∧ fe_path (it_ev i) = render fslash q.
Definition wf_item (i : item) : Prop := clean_item i ∧ u32 (fe_flags (it_ev i)).
(** What was sent about [q]. *)
Definition about (q : list str) (out : list (fsevent * N)) : list (fsevent * N) :=
  filter (λ o, fe_path o.1 = render fslash q) out.

(** The history after the first history marker, without further markers. *)
Definition marker (i : item) : Prop := fe_flags (it_ev i) .& FSEventsHistoryDone ≠ 0.
Fixpoint live (l : list item) : list item :=
  match l with
  | [] => []
  | i :: l => if decide (fe_flags (it_ev i) .& FSEventsHistoryDone = 0) then live l
              else filter (λ i, fe_flags (it_ev i) .& FSEventsHistoryDone = 0) l
  end.
(** Flags of reports that say that changes were missed, not what changed. *)
Definition losses : N := FSEventsMustScanSubDirs .| FSEventsUserDropped .| FSEventsKernelDropped.
(** [i] is an event of path [q] that concerns a watch of [p]: [q] is [p] or below it, and
    directly below it if the watch is not recursive; and it does not report a failure of
    FSEvents to somebody who did not ask for that. *)
Definition concerns (p q : list str) (i : item) : Prop :=
  fe_path (it_ev i) = render fslash q ∧ p `prefix_of` q ∧
  (it_isrec i = true ∨ (length q ≤ S (length p))%nat) ∧
  (fe_flags (it_ev i) .& losses = 0 ∨ losses .& it_events i ≠ 0).
Global Instance concerns_dec p q i : Decision (concerns p q i).
Proof. unfold concerns. apply _. Defined.
(** The events of one file the watch has seen, in order. *)
Definition seen (p q : list str) (l : list item) : list item := filter (concerns p q) (live l).

(** The effective flag sets of a file, given the flag sets reported for it: the
    heuristics of [strip], which remembers the last of Created and Removed. *)
Fixpoint effects (prev : N) (l : list N) : list N :=
  match l with
  | [] => []
  | set :: l => (strip1 prev set).2 :: effects (default prev (strip1 prev set).1) l
  end.
(** What is sent for one event with the given effective set. *)
Definition sent (i : item) (eff : N) : list (fsevent * N) := (λ e, (it_ev i, e)) <$> splitflags (eff .& it_events i).

(** ** Alternation *)
Inductive alternating {A} : list A → Prop :=
  | alt_nil : alternating []
  | alt_one x : alternating [x]
  | alt_cons x y l : x ≠ y → alternating (y :: l) → alternating (x :: y :: l).
(** The Created and Removed flags of a sequence of sets, in the order they are sent. *)
Definition created_removed (l : list N) : list N :=
  concat ((λ e, filter (λ f, f = FSEventsCreated ∨ f = FSEventsRemoved) (splitflags e)) <$> l).
(** The first set with one of the two flags has only one of them. *)
Definition clear_start (l : list N) : Prop :=
  ∀ l1 e l2, l = l1 ++ e :: l2 → Forall (λ x, x .& fs_both = 0) l1 → e .& fs_both ≠ fs_both.

(** ** The table *)
Definition fs_os (m : fstab) : ostab := (λ x, (fw_events x, fw_isrec x)) <$> m.
