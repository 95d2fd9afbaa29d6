(** * SpecFen: what the claims about FEN's memory speak about *)
From Verif Require Import Base Event Paths Clean Trigger FenGen FenMem.
Local Open Scope N_scope.

(** The calls of the tree *)
Definition is_call (l : flabel) : Prop :=
  match l with FWatch _ _ _ _ _ | FUnwatch _ _ _ _ | FRewatch _ _ _ _ _ _ => True | _ => False end.
Definition is_get (l : flabel) : Prop := match l with FGet _ _ => True | _ => False end.
Definition is_read (l : flabel) : Prop := match l with FRead _ _ => True | _ => False end.
(** No call takes place after port_get handed out an event and before its name was read. *)
Definition undisturbed (tr : list flabel) : Prop :=
  ∀ i j l l', (i < j)%nat → tr !! i = Some l → is_get l → tr !! j = Some l' → is_call l' →
    ∃ k l'', (i < k < j)%nat ∧ tr !! k = Some l'' ∧ is_read l''.
(** port_dissociate fails only for want of an association. *)
Definition port_fair (A : answers) : Prop := ∀ p, a_unwatch A p = SOk.
Definition label_fair (l : flabel) : Prop :=
  match l with
  | FWatch _ A _ _ _ | FUnwatch _ A _ _ | FProcess _ A _ _ _ _ => port_fair A
  | FRewatch _ A A' _ _ _ => port_fair A ∧ port_fair A'
  | _ => True
  end.
(** What the OS reported, and what the watcher took it for *)
Definition reports_of (l : flabel) : list (str * N) :=
  match l with FChange _ ge hits => (λ x, (x.2.1, ge .& (x.2.2 .| fen_always))) <$> hits | _ => [] end.
Definition reported (tr : list flabel) : list (str * N) := tr ≫= reports_of.
Definition taken_of (l : flabel) : list (str * N) :=
  match l with FProcess _ _ _ p ge _ => [(p, ge)] | _ => [] end.
Definition taken (tr : list flabel) : list (str * N) := tr ≫= taken_of.
(** What was sent to the tree *)
Definition fsent_of (l : flabel) : list tevent := match l with FProcess _ _ _ _ _ evn => evn | _ => [] end.
Definition fsent (tr : list flabel) : list tevent := tr ≫= fsent_of.
(** What happened to the files *)
Definition changes_of (l : flabel) : list (str * N) := match l with FChange p ge _ => [(p, ge)] | _ => [] end.
Definition changes (tr : list flabel) : list (str * N) := tr ≫= changes_of.

(** The native layer as Trigger.v has it: one association per name *)
Definition r_watch (r : gmap ident N) (A : answers) (p : str) (e : N) : gmap ident N * res :=
  match a_watch A p with SOk => (<[inr p := e]> r, ROk) | a => (r, res_of a) end.
Definition r_unwatch (r : gmap ident N) (A : answers) (p : str) : gmap ident N * res :=
  match a_unwatch A p with
  | SOk => match r !! (inr p : ident) with Some _ => (delete (inr p : ident) r, ROk) | None => (r, RNotExist) end
  | a => (r, res_of a)
  end.
(** A state over this layer as a state of Trigger.v *)
Definition as_ts (g : gst (gmap ident N)) : tstate := TS (g_heap g) (g_path g) ∅ (g_next g) ∅ (g_nat g) [].

(** No call takes place after port_get handed out an event and before it was processed. *)
Definition is_process (l : flabel) : Prop := match l with FProcess _ _ _ _ _ _ => True | _ => False end.
Definition between_events (tr : list flabel) : Prop :=
  ∀ i j l l', (i < j)%nat → tr !! i = Some l → is_get l → tr !! j = Some l' → is_call l' →
    ∃ k l'', (i < k < j)%nat ∧ tr !! k = Some l'' ∧ is_process l''.
(** Only files that are no directories are watched. *)
Definition plain_label (l : flabel) : Prop :=
  match l with FWatch st _ _ _ _ | FUnwatch st _ _ _ | FRewatch st _ _ _ _ _ => st ≠ Some true | _ => True end.
(** No file is given to Watch again before it was given to Unwatch with success. *)
Definition sets_up (p : str) (l : flabel) : Prop :=
  match l with FWatch _ _ q _ _ | FRewatch _ _ _ q _ _ => q = p | _ => False end.
Definition watches (p : str) (l : flabel) : Prop := match l with FWatch _ _ q _ _ => q = p | _ => False end.
Definition takes_down (p : str) (l : flabel) : Prop := match l with FUnwatch _ _ q r => q = p ∧ r = ROk | _ => False end.
Definition watched_once (tr : list flabel) : Prop :=
  ∀ p i j l l', (i < j)%nat → tr !! i = Some l → sets_up p l → tr !! j = Some l' → watches p l' →
    ∃ k l'', (i < k < j)%nat ∧ tr !! k = Some l'' ∧ takes_down p l''.
