(** * Spec: the small vocabulary the property theorems are stated in.

    Everything here is independent of the model's implementation choices: sets
    of event bits, histories, and counting. *)
From Verif Require Import Base Event Watchpoint.
Local Open Scope N_scope.

(** ** Histories of one watchpoint *)
Inductive wop :=
  | WAdd (k : key) (e : N)      (* channel k asks for the events e *)
  | WDel (k : key) (e : N).     (* channel k no longer wants the events e *)
Definition wop_key (o : wop) : key := match o with WAdd k _ | WDel k _ => k end.
(** The aggregate slot is not a channel. *)
Definition wops_ok (ops : list wop) : Prop := Forall (λ o, wop_key o ≠ KNil) ops.

(** Running a history on the model. *)
Definition wstep (P : platform) (wp : watchpoint) (o : wop) : watchpoint :=
  match o with WAdd k e => (wadd P wp k e).1 | WDel k e => (wdel P wp k e).1 end.
Definition wrun (P : platform) (ops : list wop) : watchpoint := foldl (wstep P) ∅ ops.

(** Does channel [k] want bit [i] after the history (oldest first)?  An Add
    naming the bit turns it on, a Del naming it turns it off. *)
Definition wanted_step (k : key) (i : N) (acc : bool) (o : wop) : bool :=
  match o with
  | WAdd k' e => acc || (bool_decide (k' = k) && N.testbit e i)
  | WDel k' e => acc && negb (bool_decide (k' = k) && N.testbit e i)
  end.
Definition wanted (ops : list wop) (k : key) (i : N) : bool :=
  foldl (wanted_step k i) false ops.

(** The user-visible aggregate of a history: bits wanted by some channel, except
    the two internal markers. *)
Definition visible (P : platform) (ops : list wop) (i : N) : Prop :=
  (∃ k, wanted ops k i = true) ∧ ¬ has (internal P) i.

(** ** Histories of one channel *)
Inductive cop := CSend (ei : event_info) | CRecv.
Record cobs := CObs { c_sent : list event_info; c_got : list event_info }.
(** Run sends/receives, collecting what was accepted and what receivers got. *)
Definition cstep (s : chan * cobs) (o : cop) : chan * cobs :=
  let '(ch, ob) := s in
  match o with
  | CSend ei =>
      let '(ch', ok) := try_send ch ei in
      (ch', CObs (if ok then c_sent ob ++ [ei] else c_sent ob)
                 (match ch_waiting ch with S _ => c_got ob ++ [ei] | O => c_got ob end))
  | CRecv =>
      let '(ch', x) := recv ch in
      (ch', CObs (c_sent ob) (match x with Some ei => c_got ob ++ [ei] | None => c_got ob end))
  end.
Definition crun (cap : nat) (ops : list cop) : chan * cobs :=
  foldl cstep (Chan cap [] 0 [], CObs [] []) ops.
