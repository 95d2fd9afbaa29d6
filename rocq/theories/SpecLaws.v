(** * SpecLaws: histories the channels cannot tell apart *)
From Verif Require Import Base Event Watchpoint Paths PathsFacts Loop Node NonRec Rec Clean SpecTree SpecNonRec SpecRec Api SpecApi.
Local Open Scope N_scope.
Notation atrace := (list (acall * outcome)).

(** An event of the file system on the entry [c] of directory [d], both with clean
    paths below the root directory; a user event, not one used internally. *)
Definition event_on (P : platform) (ei : event_info) (d : path) (c : str) : Prop :=
  ei_event ei ≠ 0 ∧ disj_ev (ei_event ei) (internal P) ∧
  gpath slash d ∧ c ≠ [] ∧ comp_ok slash c ∧ ei_path ei = render slash (d ++ [c]).
(** Linux, BSD, Solaris: after the histories, provided the OS refused no plain
    Watch, every event is offered to every channel equally often, whatever the
    environments in which the calls were made and the event is processed. *)
Definition alike_unix (P : platform) (tr tr' : atrace) : Prop :=
  ∀ s s' E E' ei d c n,
    aexec_nr P tr s → aexec_nr P tr' s' → not_refused tr → not_refused tr' → nenv P slash E → nenv P slash E' →
    event_on P ei d c → offered E s ei (KUser n) = offered E' s' ei (KUser n).
(** macOS: the same, provided the OS refused no Watch. *)
Definition alike_macos (tr tr' : atrace) : Prop :=
  ∀ s s' E E' ei d c n,
    aexec_rec fsevents tr s → aexec_rec fsevents tr' s' → never_refused tr → never_refused tr' →
    renv fsevents slash false (λ _, False) E → renv fsevents slash false (λ _, False) E' →
    event_on fsevents ei d c → rec_offered E s ei (KUser n) = rec_offered E' s' ei (KUser n).
Definition alike (P : platform) (tr tr' : atrace) : Prop :=
  (windows P = false → alike_unix P tr tr') ∧ (P = fsevents → alike_macos tr tr').

(** Calls of Watch only. *)
Definition only_watches (l : atrace) : Prop := ∀ o r, (o, r) ∈ l → ∃ fs cwd p c events, o = AWatch fs cwd p c events.
(** A call other than a Watch with channel [n]. *)
Definition not_for (n : positive) (x : acall * outcome) : Prop :=
  match x.1 with AWatch _ _ _ (Some m) _ => m ≠ n | _ => True end.
Global Instance not_for_dec n x : Decision (not_for n x).
Proof. unfold not_for. destruct x as [[? ? ? [m|] ?|?|? ?] ?]; apply _. Defined.

(** A successful Watch of channel [n] on [q] for (at least) the events [ev], for the
    whole subtree if [isrec], which is still in force at the end of [tr]. *)
Definition watched (P : platform) (tr : atrace) (isrec : bool) (n : positive) (q : path) (ev : list N) : Prop :=
  ∃ tr1 tr2 fs cwd p events isrec',
    tr = tr1 ++ (AWatch fs cwd p (Some n) events, ORet ROk) :: tr2 ∧
    denotes fs cwd p isrec' q ∧ (isrec = true → isrec' = true) ∧ events ≠ [] ∧
    (∀ e i, e ∈ ev → has e i → ∃ e', e' ∈ events ∧ has e' i) ∧ kept P tr2 n q.
(** Channel [n] was passed to no Watch since it was last stopped. *)
Definition idle (tr : atrace) (n : positive) : Prop :=
  ∀ tr1 fs cwd p events r tr2, tr = tr1 ++ (AWatch fs cwd p (Some n) events, r) :: tr2 → ∃ r', (AStop n, r') ∈ tr2.
