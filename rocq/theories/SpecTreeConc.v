(** * SpecTreeConc: what is said about the runs of the goroutines of a tree *)
From Verif Require Import Base Event Watchpoint Paths Loop Node NonRec SpecNonRec Rec SpecRec TreeConc.
Local Open Scope N_scope.

(** A call that has returned. *)
Definition returned (ls : list lab) (i : nat) : Prop := ∃ o r, LRet i o r ∈ ls.
(** A call of Watch for channel [n] that has started. *)
Definition started_watch (ls : list lab) (i : nat) (n : positive) : Prop :=
  ∃ p isrec e, LCall i (NWatch p isrec n e) ∈ ls.

(** Calls only: users do not make up directory events. *)
Definition is_call (o : nop) : Prop := match o with NEvent _ _ => False | _ => True end.
(** Steps of the goroutines of the package and of calls that have started, as opposed
    to new calls and new reports. *)
Definition work (l : lab) : Prop := match l with LCall _ _ | LReport _ => False | _ => True end.
(** Nothing is left to do. *)
Definition quiescent (c : cfg) : Prop := c_thr c = ∅ ∧ c_int c = IRecv ∧ c_q c = [] ∧ c_rec c = [].

(** The reported events, in order, and the events offered to a channel, in order;
    those the channel took. *)
Definition reports (ls : list lab) : list event_info :=
  omap (λ l, match l with LReport ei => Some ei | _ => None end) ls.
Definition offers (n : positive) (ls : list lab) : list event_info :=
  omap (λ l, match l with LOffer _ m ei _ => if decide (m = n) then Some ei else None | _ => None end) ls.
Definition sent (n : positive) (ls : list lab) : list event_info :=
  omap (λ l, match l with LOffer _ m ei true => if decide (m = n) then Some ei else None | _ => None end) ls.

(** A list in the order of another: each element of the second occurs in its turn, any
    number of times. *)
Definition in_order {A} (l : list A) (of : list A) : Prop :=
  ∃ ks : list nat, length ks = length of ∧ l = mjoin (zip_with replicate ks of).

(** No goroutine of an event has sends to make. *)
Definition idle (c : cfg) : Prop :=
  ∀ i ei, c_thr c !! i ≠ Some (TEvt ei) ∧ ∀ ks fwd, c_thr c !! i ≠ Some (TSend ei ks fwd).

Section orderly.
Context (T : tree_ops) (env_good : env → Prop) (call_ok : nop → Prop) (ev_ok : event_info → Prop).
(** Runs in which the dispatcher takes an event only when the goroutine of the event
    before it has made its sends. *)
Inductive one_by_one : list lab → cfg → Prop :=
  | obo_init : one_by_one [] cfg0
  | obo_step ls c l c' :
      one_by_one ls c → step T env_good call_ok ev_ok c l c' →
      (∀ i ei, l = LTake i ei → idle c) → one_by_one (ls ++ [l]) c'.
End orderly.
