(** * SpecTreeDeliver: what is said about delivery in the runs of the goroutines of a tree *)
From Verif Require Import Base Event Watchpoint Paths PathsFacts Loop Node NonRec SpecNonRec Rec SpecRec TreeConc SpecTreeConc.
Local Open Scope N_scope.

(** The events goroutine [j] offers to channel [n], in order; the events the dispatcher
    takes, in order. *)
Definition offered_by (j : nat) (n : positive) (ls : list lab) : list event_info :=
  omap (λ l, match l with LOffer i m ei _ => if decide (i = j ∧ m = n) then Some ei else None | _ => None end) ls.
Definition takes (ls : list lab) : list event_info :=
  omap (λ l, match l with LTake _ ei => Some ei | _ => None end) ls.
(** Goroutine [j], of an event, has made its sends. *)
Definition sends_made (c : cfg) (j : nat) : Prop :=
  c_thr c !! j = None ∨ ∃ ei, c_thr c !! j = Some (TFwd ei).

(** The history of a run: the calls, in the order in which they have their effects, with
    what they return, and the directory events that are processed. *)
Notation trace := (list (nop * result)).
Inductive history (dirs : event_info → trace → Prop) : list lab → trace → Prop :=
  | h_nil : history dirs [] []
  | h_crit ls tr i o r : history dirs ls tr → history dirs (ls ++ [LCrit i o r]) (tr ++ [(o, r)])
  | h_int ls tr ei t : history dirs ls tr → dirs ei t → history dirs (ls ++ [LInt ei]) (tr ++ t)
  | h_other ls tr l :
      history dirs ls tr → (∀ i o r, l ≠ LCrit i o r) → (∀ ei, l ≠ LInt ei) → history dirs (ls ++ [l]) tr.
(** What a directory event is in a history: on the non-recursive tree the event on the
    path it names; the other tree does nothing with it. *)
Definition dirs_nonrec (sepc : ascii) (ei : event_info) (t : trace) : Prop :=
  ∃ p, ei_path ei = render sepc p ∧ t = [(NEvent (ei_event ei) p, ROk)].
Definition dirs_rec (ei : event_info) (t : trace) : Prop := t = [].

(** A Watch on [p] for [e] concerns event [ev] on the entry [c] of directory [d]: it asks
    for the event, and is on the entry, on the directory, or a recursive one on a
    directory above. *)
Definition concerns (p : path) (isrec : bool) (e : N) (ev : N) (d : path) (c : str) : Prop :=
  incl_ev ev e ∧ (p = d ++ [c] ∨ p = d ∨ isrec = true ∧ p `prefix_of` d).
(** No call of Stop for [n] is outstanding after [l1] or made later. *)
Definition no_stop_since (l1 ls : list lab) (n : positive) : Prop :=
  ∀ k, LCall k (NStop n) ∈ ls → returned l1 k.
(** No removal of [p] or of a directory above is processed. *)
Definition not_removed (P : platform) (sepc : ascii) (ls : list lab) (p : path) : Prop :=
  ∀ ei q, LInt ei ∈ ls → ei_event ei = Remove P → ei_path ei = render sepc q → ¬ q `prefix_of` p.
(** Every plain Watch that has had its effect succeeded; every call did. *)
Definition plain_ok (ls : list lab) : Prop :=
  ∀ i p n e r, LCrit i (NWatch p false n e) r ∈ ls → r = ROk.
Definition calls_ok (ls : list lab) : Prop := ∀ i o r, LCrit i o r ∈ ls → r = ROk.
(** A Watch of channel [n] on [q] has had its effect, and no Stop of the channel since. *)
Definition standing (ls : list lab) (n : positive) (q : path) (isrec : bool) (e : N) : Prop :=
  ∃ a i r b, ls = a ++ LCrit i (NWatch q isrec n e) r :: b ∧ ∀ k r', LCrit k (NStop n) r' ∉ b.
