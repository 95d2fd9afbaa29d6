(** * C39, C40: lazy initialisation and Close of the inotify watcher under every
    interleaving. *)
From Verif Require Import Base Event Paths Clean Inotify InotifyConc.
Local Open Scope nat_scope.

(** ** C39 *)
(** Who is inside the critical section. *)
Definition inside (pc : lpc) : Prop := pc = L2 ∨ pc = L3 ∨ pc = L4.
(** A goroutine created the descriptor and has not finished setting it up. *)
Definition pending (s : lst) : Prop := ∃ t, l_pc s !! t = Some L4.
Record linv (s : lst) : Prop := LInv {
  li_lock : ∀ t pc, l_pc s !! t = Some pc → inside pc → l_lock s = Some t;
  li_held : ∀ t, l_lock s = Some t → ∃ pc, l_pc s !! t = Some pc ∧ inside pc;
  li_l3 : ∀ t, l_pc s !! t = Some L3 → l_fd s = false;
  li_l4 : ∀ t, l_pc s !! t = Some L4 → l_fd s = true ∧ l_live s = 0;
  li_closed : l_fd s = false → l_live s = 0;
  li_one : l_live s ≤ 1;
  li_open : l_fd s = true → l_live s = 1 ∨ pending s;
  li_count : l_inits s = l_shuts s + l_live s;
  li_cons : 2 * l_live s ≤ l_cons s ∧ l_cons s ≤ 2 * l_inits s;
}.
Lemma linv_init : linv linit.
Proof. split; cbn; try done; try lia; intros t; try intros pc; by rewrite lookup_empty. Qed.

Lemma not_inside pc : pc = L0 ∨ pc = L1 ∨ (∃ ok, pc = LRet ok) → ¬ inside pc.
Proof. intros [->|[->|[ok ->]]] [?|[?|?]]; done. Qed.
Lemma is_inside pc : pc = L2 ∨ pc = L3 ∨ pc = L4 → inside pc.
Proof. done. Qed.
(** A goroutine outside the critical section moves to a place outside it. *)
Lemma linv_outside s t pc pc' :
  linv s → l_pc s !! t = pc → (∀ p, pc = Some p → ¬ inside p) → ¬ inside pc' →
  linv (LS (lset s t pc') (l_fd s) (l_lock s) (l_live s) (l_cons s) (l_inits s) (l_shuts s)).
Proof.
  intros [Hlock Hheld H3 H4 Hc H1 Ho Hn Hw] Ht Hout Hout'. split; cbn; try done.
  - intros u p Hu Hin. destruct (decide (u = t)) as [->|Hne].
    + rewrite lookup_insert in Hu. injection Hu as <-. done.
    + rewrite lookup_insert_ne in Hu by done. eauto.
  - intros u Hu. destruct (Hheld u Hu) as (p&Hp&Hin). exists p. split; [|done].
    rewrite lookup_insert_ne; [done|]. intros ->. rewrite Hp in Ht. by apply (Hout p).
  - intros u Hu. destruct (decide (u = t)) as [->|Hne].
    + rewrite lookup_insert in Hu. injection Hu as ->. by destruct Hout'; apply is_inside; auto.
    + rewrite lookup_insert_ne in Hu by done. eauto.
  - intros u Hu. destruct (decide (u = t)) as [->|Hne].
    + rewrite lookup_insert in Hu. injection Hu as ->. by destruct Hout'; apply is_inside; auto.
    + rewrite lookup_insert_ne in Hu by done. eauto.
  - intros Hf. destruct (Ho Hf) as [?|[u Hu]]; [by left|right]. exists u. cbn.
    rewrite lookup_insert_ne; [done|]. intros ->. rewrite Hu in Ht. apply (Hout L4); [done|]. apply is_inside; auto.
Qed.
(** The goroutine holding the lock moves, keeping it ([lk' = Some t], [pc'] inside) or
    releasing it ([lk' = None], [pc'] outside). *)
Lemma linv_holder s t pc pc' fd' lk' live' cons' inits' :
  linv s → l_pc s !! t = Some pc → inside pc ∨ (pc = L1 ∧ l_lock s = None) →
  (lk' = Some t ∧ inside pc') ∨ (lk' = None ∧ ¬ inside pc') →
  (pc' = L3 → fd' = false) → (pc' = L4 → fd' = true ∧ live' = 0) →
  (fd' = false → live' = 0) → live' ≤ 1 → (fd' = true → live' = 1 ∨ pc' = L4) →
  inits' = l_shuts s + live' → 2 * live' ≤ cons' ∧ cons' ≤ 2 * inits' →
  linv (LS (lset s t pc') fd' lk' live' cons' inits' (l_shuts s)).
Proof.
  intros [Hlock Hheld H3 H4 Hc H1 Ho Hn Hw] Ht Hin Hlk Hf3 Hf4 Hfc Hl1 Hfo Hni Hcw.
  assert (Hother : ∀ u p, u ≠ t → l_pc s !! u = Some p → ¬ inside p).
  { intros u p Hne Hu Hp. pose proof (Hlock _ _ Hu Hp) as E1. destruct Hin as [Hin|[_ Hin]].
    - pose proof (Hlock _ _ Ht Hin). congruence.
    - congruence. }
  split; cbn; try done.
  - intros u p Hu Hp. destruct (decide (u = t)) as [->|Hne].
    + rewrite lookup_insert in Hu. injection Hu as <-. by destruct Hlk as [[-> _]|[_ ?]].
    + rewrite lookup_insert_ne in Hu by done. by destruct (Hother u p).
  - intros u Hu. destruct Hlk as [[-> Hp]|[-> _]]; [|done]. injection Hu as <-. exists pc'. by rewrite lookup_insert.
  - intros u Hu. destruct (decide (u = t)) as [->|Hne].
    + rewrite lookup_insert in Hu. injection Hu as ->. by apply Hf3.
    + rewrite lookup_insert_ne in Hu by done. destruct (Hother u L3); [done..|]. apply is_inside; auto.
  - intros u Hu. destruct (decide (u = t)) as [->|Hne].
    + rewrite lookup_insert in Hu. injection Hu as ->. by apply Hf4.
    + rewrite lookup_insert_ne in Hu by done. destruct (Hother u L4); [done..|]. apply is_inside; auto.
  - intros Hf. destruct (Hfo Hf) as [?| ->]; [by left|right]. exists t. cbn. by rewrite lookup_insert.
Qed.
Lemma linv_step s s' : linv s → lstep s s' → linv s'.
Proof.
  intros Hi Hs. pose proof Hi as [Hlock Hheld H3 H4 Hc H1 Ho Hn Hw].
  assert (Hnp : ∀ t pc, l_pc s !! t = Some pc → inside pc → pc ≠ L4 → l_fd s = true → l_live s = 1).
  { intros t pc Ht Hin Hne Hf. destruct (Ho Hf) as [?|[u Hu]]; [done|].
    assert (inside L4) as Hin4 by (apply is_inside; auto).
    pose proof (Hlock _ _ Ht Hin) as E1. pose proof (Hlock _ _ Hu Hin4) as E2. congruence. }
  inversion Hs; subst; clear Hs.
  - eapply linv_outside; [done|reflexivity| |apply not_inside; auto]. congruence.
  - eapply linv_outside; [done|reflexivity| |apply not_inside; eauto]. intros p Hp. apply not_inside. left. congruence.
  - eapply linv_outside; [done|reflexivity| |apply not_inside; eauto]. intros p Hp. apply not_inside. left. congruence.
  - eapply linv_holder; eauto; try done; try lia.
    + left. split; [done|]. apply is_inside; auto.
    + intros Hf. destruct (Ho Hf) as [?|[u Hu]]; [by left|].
      assert (l_lock s = Some u) by (eapply Hlock; [exact Hu|apply is_inside; auto]). congruence.
  - assert (inside L2) by (apply is_inside; auto).
    eapply linv_holder; eauto; try done; try lia.
    right. split; [done|]. apply not_inside; eauto.
  - assert (inside L2) by (apply is_inside; auto). assert (l_lock s = Some t) by eauto.
    eapply linv_holder; eauto; try done; try lia.
    all: first [left; split; [done|]; apply is_inside; by auto|congruence].
  - assert (inside L3) by (apply is_inside; auto). assert (l_fd s = false) by eauto.
    eapply linv_holder; eauto; try done; try lia.
    all: first [right; split; [done|]; apply not_inside; by eauto|congruence].
  - assert (inside L3) by (apply is_inside; auto). assert (l_lock s = Some t) by eauto. assert (l_live s = 0) by eauto.
    eapply linv_holder; eauto; try done; try lia.
    left. split; [done|]. apply is_inside; auto.
  - assert (inside L4) by (apply is_inside; auto). assert (l_live s = 0) by (by eapply H4).
    eapply linv_holder; eauto; try done; try lia.
    right. split; [done|]. apply not_inside; eauto.
  - assert (inside L4) by (apply is_inside; auto). destruct (H4 t) as [Hf Hz]; [done|].
    eapply linv_holder; eauto; try done; try lia; try congruence.
    all: first [right; split; [done|]; apply not_inside; by eauto|intros _; left; lia].
  - split; cbn; try done; try lia.
    + intros t pc Ht Hin. pose proof (Hlock _ _ Ht Hin). congruence.
    + intros t Ht. assert (l_lock s = Some t) by (eapply Hlock; [exact Ht|apply is_inside; auto]). congruence.
  - split; cbn; try done; try lia.
Qed.
Lemma linv_reach s : lreach s → linv s.
Proof. induction 1; [apply linv_init|by eapply linv_step]. Qed.

(** However many goroutines call Watch, in every reachable state at most one
    instance is live and each instance's loop and two consumers were started once:
    instances set up = instances shut down + live ones. *)
Theorem C39_at_most_one s : lreach s → l_live s ≤ 1 ∧ l_inits s = l_shuts s + l_live s.
Proof. intros H%linv_reach. split; apply H. Qed.
(** If nothing was shut down, at most one instance was ever created, with at most two
    consumers. *)
Theorem C39_started_once s : lreach s → l_shuts s = 0 → l_inits s ≤ 1 ∧ l_cons s = 2 * l_inits s.
Proof. intros H%linv_reach Hz. destruct H as [? ? ? ? ? ? ? ? ?]. lia. Qed.
(** Only one goroutine is ever inside the critical section. *)
Theorem C39_exclusive s t u p q :
  lreach s → l_pc s !! t = Some p → inside p → l_pc s !! u = Some q → inside q → t = u.
Proof.
  intros H%linv_reach Ht Hp Hu Hq. pose proof (li_lock s H _ _ Ht Hp). pose proof (li_lock s H _ _ Hu Hq). congruence.
Qed.
(** The descriptor is visible to others only while an instance is live or is being
    set up by the goroutine holding the lock. *)
Theorem C39_descriptor s : lreach s → l_fd s = true → l_live s = 1 ∨ pending s.
Proof. intros H%linv_reach. apply H. Qed.

(** Runs given by a list of actions. *)
Inductive lact := ACall (t : nat) | AFd (t : nat) | ALock (t : nat) | AFd2 (t : nat)
  | AInit (t : nat) (ok : bool) | AEpoll (t : nat) (ok : bool) | AShut.
Definition lrun1 (s : lst) (a : lact) : option lst :=
  let mk t pc fd lk live cons inits := Some (LS (lset s t pc) fd lk live cons inits (l_shuts s)) in
  match a with
  | ACall t => match l_pc s !! t with None => mk t L0 (l_fd s) (l_lock s) (l_live s) (l_cons s) (l_inits s) | _ => None end
  | AFd t => match l_pc s !! t with
      | Some L0 => mk t (if l_fd s then LRet true else L1) (l_fd s) (l_lock s) (l_live s) (l_cons s) (l_inits s)
      | _ => None end
  | ALock t => match l_pc s !! t, l_lock s with
      | Some L1, None => mk t L2 (l_fd s) (Some t) (l_live s) (l_cons s) (l_inits s) | _, _ => None end
  | AFd2 t => match l_pc s !! t with
      | Some L2 => if l_fd s then mk t (LRet true) (l_fd s) None (l_live s) (l_cons s) (l_inits s)
                   else mk t L3 (l_fd s) (l_lock s) (l_live s) (l_cons s) (l_inits s)
      | _ => None end
  | AInit t ok => match l_pc s !! t with
      | Some L3 => if ok : bool then mk t L4 true (l_lock s) (l_live s) (l_cons s) (l_inits s)
                   else mk t (LRet false) (l_fd s) None (l_live s) (l_cons s) (l_inits s)
      | _ => None end
  | AEpoll t ok => match l_pc s !! t with
      | Some L4 => if ok : bool then mk t (LRet true) (l_fd s) None (S (l_live s)) (2 + l_cons s) (S (l_inits s))
                   else mk t (LRet false) false None (l_live s) (l_cons s) (l_inits s)
      | _ => None end
  | AShut => match l_live s, l_lock s with
      | S n, None => Some (LS (l_pc s) false None n (l_cons s) (l_inits s) (S (l_shuts s))) | _, _ => None end
  end.
Fixpoint lrun (s : lst) (l : list lact) : option lst :=
  match l with [] => Some s | a :: l => lrun1 s a ≫= λ s, lrun s l end.
Lemma lrun1_step s a s' : lrun1 s a = Some s' → lstep s s'.
Proof.
  destruct a as [t|t|t|t|t ok|t ok|]; cbn [lrun1]; intros H.
  7: { destruct (l_live s) as [|n] eqn:El, (l_lock s) eqn:Ek; try done. injection H as <-.
       replace n with (l_live s - 1) by lia. apply ls_shut; [lia|done]. }
  all: repeat (case_match; try done); injection H as <-.
  all: first [by apply ls_call|by apply ls_fast|by apply ls_slow|by apply ls_lock|by apply ls_again|by apply ls_need
    |by apply ls_initfail|by apply ls_init|by apply ls_epollfail|by apply ls_start|idtac].
  all: match goal with Hp : l_pc ?s !! ?t = Some _, Hf : l_fd ?s = _ |- _ =>
    let go r := (let X := fresh in pose proof (r s t Hp Hf) as X; rewrite Hf in X; exact X) in
    first [go ls_fast|go ls_slow|go ls_again|go ls_need] end.
Qed.
Lemma lrun_reach s l s' : lreach s → lrun s l = Some s' → lreach s'.
Proof.
  revert s. induction l as [|a l IH]; intros s Hs H; cbn [lrun] in H; [by injection H as <-|].
  apply bind_Some in H as (s1&H1&H2). eapply IH; [|done]. eapply lr_step; [done|by eapply lrun1_step].
Qed.
(** Two goroutines race, one sets the instance up; later it is shut down and set up
    again.  The hypotheses of the theorems above are met by non-trivial runs. *)
Definition race : list lact :=
  [ACall 1; ACall 2; AFd 1; AFd 2; ALock 1; AFd2 1; AInit 1 true; AEpoll 1 true; ALock 2; AFd2 2;
   AShut; ACall 3; AFd 3; ALock 3; AFd2 3; AInit 3 true; AEpoll 3 true].
Definition lview (s : lst) := (l_pc s !! 1, l_pc s !! 2, l_pc s !! 3, l_fd s, l_lock s, l_live s, l_cons s, l_inits s, l_shuts s).
Example C39_ex : ∃ s, lreach s ∧
  lview s = (Some (LRet true), Some (LRet true), Some (LRet true), true, None, 1, 4, 2, 1).
Proof.
  destruct (lrun linit race) as [s|] eqn:E; [|by vm_compute in E].
  exists s. split; [by eapply lrun_reach; [apply lr_init|]|].
  assert (lview <$> lrun linit race = Some (Some (LRet true), Some (LRet true), Some (LRet true), true, None, 1, 4, 2, 1)) as H by by vm_compute.
  rewrite E in H. clear E. apply (inj Some) in H. exact H.
Qed.
(** The descriptor is stored before epollinit: a second goroutine can pass lazyinit
    with nil although the set-up then fails and no instance ever existed. *)
Theorem C39_nil_without_instance : ∃ s, lreach s ∧ l_pc s !! 2 = Some (LRet true) ∧
  l_pc s !! 1 = Some (LRet false) ∧ l_inits s = 0 ∧ l_fd s = false.
Proof.
  set (l := [ACall 1; AFd 1; ALock 1; AFd2 1; AInit 1 true; ACall 2; AFd 2; AEpoll 1 false]).
  destruct (lrun linit l) as [s|] eqn:E; [|by vm_compute in E].
  exists s. split; [by eapply lrun_reach; [apply lr_init|]|].
  assert (lview <$> lrun linit l = Some (Some (LRet false), Some (LRet true), None, false, None, 0, 0, 0, 0)) as H by by vm_compute.
  rewrite E in H. clear E. apply (inj Some) in H. unfold lview in H. clear -H. by simplify_eq.
Qed.

(** ** C40 *)
Record cinv (s : cstt) : Prop := CInv {
  ci_len : length (c_cons s) = 2;
  ci_end : c_loop s = LEnd ↔ c_fd s = false;
  ci_ecl : c_eclosed s = true ↔ c_loop s = LEnd;
  ci_cend : CEnd ∈ c_cons s → c_eclosed s = true;
  ci_ret : c_close s = KReturned → Forall (λ c, c = CEnd) (c_cons s);
  ci_pipe : c_close s = KWaiting → c_loop s ≠ LEnd → 0 < c_pipe s;
  ci_none : c_close s = KNone → c_pipe s = 0 ∧ c_loop s ≠ LEnd;
  ci_m : c_close s ≠ KNone → c_m s = ∅;
}.
Lemma cinv_init : cinv cinit.
Proof. split; cbn; try done. intros H. by rewrite !elem_of_cons, elem_of_nil in H; destruct H as [?|[?|?]]. Qed.
Lemma cons_insert_end (l : list conspc) k c : CEnd ∈ <[k := c]> l → c ≠ CEnd → CEnd ∈ l.
Proof.
  intros (i&Hi)%elem_of_list_lookup Hc. apply elem_of_list_lookup. exists i.
  destruct (decide (k = i)) as [->|Hne]; [|by rewrite list_lookup_insert_ne in Hi].
  destruct (decide (i < length l)) as [Hl|Hl].
  - rewrite list_lookup_insert in Hi by done. congruence.
  - by rewrite list_insert_ge in Hi by lia.
Qed.
Lemma all_end_not (l : list conspc) k c : Forall (λ c, c = CEnd) l → l !! k = Some c → c = CEnd.
Proof. intros H Hk. by apply (Forall_lookup_1 _ _ _ _ H Hk). Qed.
Lemma cinv_cstep s s' : cinv s → cstep s s' → cinv s'.
Proof.
  intros Hi Hs. pose proof Hi as [Hlen Hend Hecl Hcend Hret Hpipe Hnone Hm].
  inversion Hs; subst; clear Hs.
  all: split; cbn; rewrite ?insert_length; try done.
  all: try (intros Hx; apply Hcend; eapply cons_insert_end; [exact Hx|done]).
  all: try (intros Hx; exfalso; pose proof (all_end_not _ _ _ (Hret Hx) ltac:(eassumption)); done).
  all: try (by intuition congruence).
  all: try (intros Hx; destruct (Hnone Hx); split; [done|congruence]).
  all: try (intros Hx ?; apply Hpipe; [done|congruence]).
  all: try (intros Hx; exfalso; destruct (Hnone Hx); lia).
  all: try (intros; apply Hm; congruence).
Qed.
Lemma cinv_ostep s s' : cinv s → ostep s s' → cinv s'.
Proof.
  intros Hi Hs. pose proof Hi as [Hlen Hend Hecl Hcend Hret Hpipe Hnone Hm].
  inversion Hs; subst; clear Hs; split; cbn; try done; try congruence.
  intros _ _. lia.
Qed.
Lemma cinv_reach s : creach s → cinv s.
Proof. induction 1 as [|s s' _ IH [H|H]]; [apply cinv_init|by eapply cinv_cstep|by eapply cinv_ostep]. Qed.
Lemma cstep_close s s' : cstep s s' → c_close s ≠ KNone → c_close s' ≠ KNone.
Proof. intros Hs. by inversion Hs. Qed.
Lemma sent_nil es : sent ∅ es = [].
Proof.
  assert (∀ r, transform1 ∅ r = (None, None)) as H1.
  { intros r. unfold transform1. rewrite lookup_empty. by destruct (negb _). }
  unfold sent, transform. induction es as [|r es IH]; [done|].
  cbn. rewrite H1. cbn. rewrite omap_app in IH |- *. cbn. exact IH.
Qed.

(** Close on a watcher that was never started (or is closed) changes nothing; on a
    running one nothing is left in either table. *)
Theorem C40_not_started s : i_open s = false → i_close s = s.
Proof. intros H. unfold i_close. by rewrite H. Qed.
Theorem C40_removes_all s : i_open s = true → i_open (i_close s) = false ∧ i_m (i_close s) = ∅ ∧ i_k (i_close s) = ∅.
Proof. intros H. unfold i_close. by rewrite H. Qed.

(** When Close has returned the loop and both consumers have ended, and no step of
    any kind is left: nothing is ever sent again. *)
Theorem C40_quiet s : creach s → c_close s = KReturned →
  length (c_cons s) = 2 ∧ Forall (λ c, c = CEnd) (c_cons s) ∧ c_loop s = LEnd ∧
  ∀ s', ¬ cstep s s' ∧ ¬ ostep s s'.
Proof.
  intros H%cinv_reach Hc. destruct H as [Hlen Hend Hecl Hcend Hret Hpipe Hnone Hm].
  specialize (Hret Hc).
  assert (Hl : c_loop s = LEnd).
  { apply Hecl, Hcend. destruct (c_cons s) as [|c l]; [done|]. apply Forall_cons_1 in Hret as [-> _]. left. }
  split_and!; try done. intros s'. split; intros Hs; inversion Hs; subst; try congruence.
  all: pose proof (all_end_not _ _ _ Hret ltac:(eassumption)); done.
Qed.

(** While Close waits, some goroutine can take a step. *)
Theorem C40_no_deadlock s : creach s → c_close s = KWaiting → ∃ s', cstep s s'.
Proof.
  intros H%cinv_reach Hc. destruct H as [Hlen Hend Hecl Hcend Hret Hpipe Hnone Hm].
  destruct (c_cons s) as [|c0 [|c1 [|? ?]]] eqn:E; try done.
  assert (Hk : ∀ k c, c_cons s !! k = Some c → c ≠ CEnd → c ≠ CWait → ∃ s', cstep s s').
  { intros k c Hk H1 H2. destruct c as [|es|[|e l]|]; try done; eexists.
    - by eapply cs_transform. - by eapply cs_next. - by eapply cs_send. }
  destruct (c_loop s) as [|es|] eqn:El.
  - eexists. apply cs_shut; [done| |apply Hpipe; done].
    destruct (c_fd s); [done|]. by destruct Hend as [_ Hend]; specialize (Hend eq_refl).
  - destruct (decide (c_eclosed s = true)) as [He|He]; [by apply Hecl in He|].
    destruct c0 as [|es0|l0|].
    + eexists. eapply (cs_give s es 0); [done|]. by rewrite E.
    + eapply (Hk 0); [by rewrite E|done..].
    + eapply (Hk 0); [by rewrite E|done..].
    + destruct He. apply Hcend. left.
  - assert (He : c_eclosed s = true) by (by apply Hecl).
    assert (Hw : ∀ k, c_cons s !! k = Some CWait → ∃ s', cstep s s').
    { intros k Hw. eexists. by eapply cs_end. }
    destruct c0 as [|es0|l0|]; [eapply (Hw 0); by rewrite E|eapply (Hk 0); [by rewrite E|done..]..|].
    destruct c1 as [|es1|l1|]; [eapply (Hw 1); by rewrite E|eapply (Hk 1); [by rewrite E|done..]..|].
    eexists. apply cs_ret; [done|]. rewrite E. repeat constructor.
Qed.

(** A bound on the number of steps Close can still wait for. *)
Definition mu_cons (c : conspc) : nat :=
  match c with CWait => 1 | CGot _ => 3 | CSend l => 2 + length l | CEnd => 0 end.
Definition mu (s : cstt) : nat :=
  4 * length (c_q s) + match c_loop s with LPoll => 1 | LGive _ => 4 | LEnd => 0 end
  + foldr (λ c n, mu_cons c + n) 0 (c_cons s) + match c_close s with KWaiting => 1 | _ => 0 end.
Lemma mu_insert l k c c' : l !! k = Some c →
  foldr (λ c n, mu_cons c + n) 0 (<[k := c']> l) + mu_cons c = foldr (λ c n, mu_cons c + n) 0 l + mu_cons c'.
Proof.
  revert k. induction l as [|x l IH]; intros [|k] Hk; try done.
  - injection Hk as ->. cbn. lia.
  - specialize (IH k Hk). change (<[S k:=c']> (x :: l)) with (x :: <[k:=c']> l). cbn [foldr]. lia.
Qed.
Lemma mu_step s s' : cinv s → c_close s ≠ KNone → cstep s s' → mu s' < mu s.
Proof.
  intros Hi Hc Hs. pose proof (ci_m s Hi Hc) as Hm. unfold mu.
  inversion Hs as [? es q El Ef Eq|? es k El Ek|? El Ef Ep|? es k Ek|? e l k Ek|? k Ek|? k Ek Ee|? Ec Ef]; subst; cbn.
  - rewrite El, Eq. cbn. lia.
  - rewrite El. pose proof (mu_insert _ _ _ (CGot es) Ek) as H. cbn in H. lia.
  - rewrite El. lia.
  - rewrite Hm, sent_nil. pose proof (mu_insert _ _ _ (CSend []) Ek) as H. cbn in H. lia.
  - pose proof (mu_insert _ _ _ (CSend l) Ek) as H. cbn in H. lia.
  - pose proof (mu_insert _ _ _ CWait Ek) as H. cbn in H. lia.
  - pose proof (mu_insert _ _ _ CEnd Ek) as H. cbn in H. lia.
  - rewrite Ec. lia.
Qed.
(** Once Close is called, every schedule takes at most [mu s] further steps ... *)
Theorem C40_bounded s s' n : creach s → c_close s ≠ KNone → nsteps cstep n s s' → n ≤ mu s.
Proof.
  intros H%cinv_reach Hc Hn. induction Hn as [|n s s1 s' H1 _ IH]; [lia|].
  pose proof (mu_step _ _ H Hc H1). apply cinv_cstep in H1 as Hi; [|done].
  specialize (IH Hi (cstep_close _ _ H1 Hc)). lia.
Qed.
Lemma creach_steps s s' n : creach s → nsteps cstep n s s' → creach s'.
Proof. intros H Hn. induction Hn as [|n s s1 s' H1 _ IH]; [done|]. apply IH. eapply cr_step; [done|by left]. Qed.
(** ... and it can only come to rest with Close having returned. *)
Theorem C40_returns s s' n :
  creach s → c_close s ≠ KNone → nsteps cstep n s s' → (∀ s'', ¬ cstep s' s'') → c_close s' = KReturned.
Proof.
  intros H Hc Hn Hstop. pose proof (creach_steps _ _ _ H Hn) as H'.
  assert (c_close s' ≠ KNone) as Hc'.
  { clear -Hc Hn. induction Hn as [|n s s1 s' H1 _ IH]; [done|]. apply IH. by eapply cstep_close. }
  destruct (c_close s') eqn:E; [done| |done]. destruct (C40_no_deadlock s' H' E) as [s'' Hs]. by destruct (Hstop s'').
Qed.

(** What the consumers are in the middle of sending. *)
Definition inflight (s : cstt) : list ievent :=
  concat ((λ c, match c with CSend l => l | _ => [] end) <$> c_cons s).
Lemma inflight_insert (l : list conspc) k c c' a d :
  l !! k = Some c → (match c with CSend x => x | _ => [] end) = a ++ d →
  (match c' with CSend x => x | _ => [] end) = d →
  a ++ concat ((λ c, match c with CSend l => l | _ => [] end) <$> <[k := c']> l) ≡ₚ
  concat ((λ c, match c with CSend l => l | _ => [] end) <$> l).
Proof.
  revert k. induction l as [|x l IH]; intros [|k] Hk Hc Hc'; cbn in *; try done.
  - injection Hk as ->. rewrite Hc, Hc', (assoc_L (++)). done.
  - rewrite <-(IH k Hk Hc Hc'). by rewrite !(assoc_L (++)), (comm (++) a).
Qed.
(** After Close is called only events already in the hands of a consumer are sent:
    records still queued in the kernel, or read and not yet looked up, are dropped. *)
Theorem C40_only_inflight s s' n :
  creach s → c_close s ≠ KNone → nsteps cstep n s s' →
  ∃ l, c_out s' = c_out s ++ l ∧ l ++ inflight s' ≡ₚ inflight s.
Proof.
  intros H%cinv_reach Hc Hn. induction Hn as [|n s s1 s' H1 _ IH].
  - exists []. by rewrite app_nil_r.
  - apply cinv_cstep in H1 as Hi; [|done].
    destruct (IH Hi (cstep_close _ _ H1 Hc)) as (l&Hl&Hp).
    assert (∃ a, c_out s1 = c_out s ++ a ∧ a ++ inflight s1 ≡ₚ inflight s) as (a&Ha&Hpa).
    { pose proof (ci_m s H Hc) as Hm. clear -H1 Hm. unfold inflight.
      inversion H1 as [? es q El Ef Eq|? es k El Ek|? El Ef Ep|? es k Ek|? e l k Ek|? k Ek|? k Ek Ee|? Ec Ef]; subst; cbn.
      - exists []. by rewrite app_nil_r.
      - exists []. rewrite app_nil_r. split; [done|]. by eapply (inflight_insert _ _ _ _ [] []).
      - exists []. by rewrite app_nil_r.
      - exists []. rewrite app_nil_r. split; [done|]. eapply (inflight_insert _ _ _ _ [] []); [done..|]. by rewrite Hm, sent_nil.
      - exists [e]. split; [done|]. by eapply (inflight_insert _ _ _ _ [e] l).
      - exists []. rewrite app_nil_r. split; [done|]. by eapply (inflight_insert _ _ _ _ [] []).
      - exists []. rewrite app_nil_r. split; [done|]. by eapply (inflight_insert _ _ _ _ [] []).
      - exists []. by rewrite app_nil_r. }
    exists (a ++ l). split; [by rewrite Hl, Ha, (assoc_L (++))|].
    by rewrite <-Hpa, <-(assoc_L (++)), Hp.
Qed.

(** A run: an event is read and being sent when Close is called; another record is
    still queued.  Close returns, the first event was sent, the second dropped. *)
Definition m1 : gmap Z watched := {[1%Z := Wd (b "/d") IWrite]}.
Definition r1 : raw := Raw 1 InModify 0 (b "f").
Definition r2 : raw := Raw 1 InModify 0 (b "g").
Definition e1 : ievent := IE 1 InModify 0 (b "/d/f") IWrite.
Lemma sent_r1 : sent m1 [r1] = [e1].
Proof. by vm_compute. Qed.
Lemma creach_c s s' : creach s → cstep s s' → creach s'.
Proof. intros. eapply cr_step; eauto. Qed.
Lemma creach_o s s' : creach s → ostep s s' → creach s'.
Proof. intros. eapply cr_step; eauto. Qed.
Lemma run_mid : creach (CS true ∅ [[r2]; ignored m1] 1 LPoll false [CSend [e1]; CWait] KWaiting []).
Proof.
  assert (H : creach (CS true m1 [] 0 LPoll false [CWait; CWait] KNone [])) by (eapply creach_o; [apply cr_init|match goal with |- _ ?s _ => by eapply (os_watch s m1) end]).
  assert (H1 : creach (CS true m1 [[r1]] 0 LPoll false [CWait; CWait] KNone [])) by (eapply creach_o; [apply H|match goal with |- _ ?s _ => by eapply (os_kernel s [r1]) end]).
  assert (H2 : creach (CS true m1 [] 0 (LGive [r1]) false [CWait; CWait] KNone [])) by (eapply creach_c; [apply H1|match goal with |- _ ?s _ => by eapply (cs_read s [r1] []) end]).
  assert (H3 : creach (CS true m1 [[r2]] 0 (LGive [r1]) false [CWait; CWait] KNone [])) by (eapply creach_o; [apply H2|match goal with |- _ ?s _ => by eapply (os_kernel s [r2]) end]).
  assert (H4 : creach (CS true m1 [[r2]] 0 LPoll false [CGot [r1]; CWait] KNone [])) by (eapply creach_c; [apply H3|match goal with |- _ ?s _ => by eapply (cs_give s [r1] 0) end]).
  assert (H5 : creach (CS true m1 [[r2]] 0 LPoll false [CSend [e1]; CWait] KNone [])).
  { rewrite <-sent_r1. eapply creach_c; [apply H4|match goal with |- _ ?s _ => by eapply (cs_transform s [r1] 0) end]. }
  eapply creach_o; [apply H5|match goal with |- _ ?s _ => by eapply (os_close s) end].
Qed.
Lemma run_end : ∃ n, nsteps cstep n (CS true ∅ [[r2]; ignored m1] 1 LPoll false [CSend [e1]; CWait] KWaiting [])
  (CS false ∅ [ignored m1] 0 LEnd true [CEnd; CEnd] KReturned [e1]).
Proof.
  exists 10.
  apply nsteps_l with (CS true ∅ [ignored m1] 1 (LGive [r2]) false [CSend [e1]; CWait] KWaiting []); [match goal with |- _ ?s _ => by eapply (cs_read s [r2]) end|].
  apply nsteps_l with (CS true ∅ [ignored m1] 1 LPoll false [CSend [e1]; CGot [r2]] KWaiting []); [match goal with |- _ ?s _ => by eapply (cs_give s [r2] 1) end|].
  apply nsteps_l with (CS true ∅ [ignored m1] 1 LPoll false [CSend [e1]; CSend []] KWaiting []).
  { rewrite <-(sent_nil [r2]). match goal with |- _ ?s _ => by eapply (cs_transform s [r2] 1) end. }
  apply nsteps_l with (CS true ∅ [ignored m1] 1 LPoll false [CSend []; CSend []] KWaiting [e1]); [match goal with |- _ ?s _ => by eapply (cs_send s e1 [] 0) end|].
  apply nsteps_l with (CS true ∅ [ignored m1] 1 LPoll false [CWait; CSend []] KWaiting [e1]); [match goal with |- _ ?s _ => by eapply (cs_next s 0) end|].
  apply nsteps_l with (CS true ∅ [ignored m1] 1 LPoll false [CWait; CWait] KWaiting [e1]); [match goal with |- _ ?s _ => by eapply (cs_next s 1) end|].
  apply nsteps_l with (CS false ∅ [ignored m1] 0 LEnd true [CWait; CWait] KWaiting [e1]); [eapply (cs_shut (CS true ∅ [ignored m1] 1 LPoll false [CWait; CWait] KWaiting [e1])); [done..|cbn; lia]|].
  apply nsteps_l with (CS false ∅ [ignored m1] 0 LEnd true [CEnd; CWait] KWaiting [e1]); [match goal with |- _ ?s _ => by eapply (cs_end s 0) end|].
  apply nsteps_l with (CS false ∅ [ignored m1] 0 LEnd true [CEnd; CEnd] KWaiting [e1]); [match goal with |- _ ?s _ => by eapply (cs_end s 1) end|].
  apply nsteps_l with (CS false ∅ [ignored m1] 0 LEnd true [CEnd; CEnd] KReturned [e1]); [eapply (cs_ret (CS false ∅ [ignored m1] 0 LEnd true [CEnd; CEnd] KWaiting [e1])); [done|repeat constructor]|].
  apply nsteps_O.
Qed.
Example C40_ex : ∃ s s' n, creach s ∧ c_close s = KWaiting ∧ nsteps cstep n s s' ∧
  c_close s' = KReturned ∧ c_out s = [] ∧ c_out s' = [e1].
Proof. destruct run_end as [n Hn]. eexists _, _, n. split_and!; [apply run_mid|done|exact Hn|done..]. Qed.

(** The model above lets nobody call Watch between the call of Close and its return.
    Without that the claim fails: i.wg is shared by successive instances, and a Watch
    after the loop has stored the invalid descriptor starts a new one.  In this state
    the first instance is gone, loop and consumers, and yet Close waits: for as long
    as the second instance is not shut down as well the wait group stays positive. *)
Lemma linits_mono s s' : rtc lstep s s' → l_inits s ≤ l_inits s'.
Proof. induction 1 as [|s s1 s' H _ IH]; [done|]. etrans; [|exact IH]. inversion H; subst; cbn; lia. Qed.
Lemma lreach_rtc s s' : lreach s → rtc lstep s s' → lreach s'.
Proof. intros H Hr. induction Hr as [|s s1 s' H1 _ IH]; [done|]. apply IH. by eapply lr_step. Qed.
Theorem C40_concurrent_watch_refuted : ∃ s, lreach s ∧ l_shuts s = 1 ∧ l_live s = 1 ∧ l_cons s = 2 ∧
  ∀ s', rtc lstep s s' → l_shuts s' = 1 → 0 < l_cons s'.
Proof.
  destruct C39_ex as (s&Hs&Hv). injection Hv as _ _ _ Hf Hk Hl Hc Hi Hsh.
  set (s1 := LS (l_pc s) (l_fd s) (l_lock s) (l_live s) (l_cons s - 1) (l_inits s) (l_shuts s)).
  assert (lreach s1) as Hs1 by (eapply lr_step; [exact Hs|]; apply ls_done; lia).
  set (s2 := LS (l_pc s1) (l_fd s1) (l_lock s1) (l_live s1) (l_cons s1 - 1) (l_inits s1) (l_shuts s1)).
  assert (lreach s2) as Hs2 by (eapply lr_step; [exact Hs1|]; apply ls_done; cbn; lia).
  exists s2. cbn. split_and!; try done; try lia.
  intros s' Hr Hsh'. pose proof (linits_mono _ _ Hr) as Hm. cbn in Hm.
  pose proof (linv_reach _ (lreach_rtc _ _ Hs2 Hr)) as [? ? ? ? ? ? ? Hn Hw]. lia.
Qed.

Print Assumptions C39_at_most_one.
Print Assumptions C39_started_once.
Print Assumptions C39_exclusive.
Print Assumptions C39_descriptor.
Print Assumptions C39_nil_without_instance.
Print Assumptions C39_ex.
Print Assumptions C40_not_started.
Print Assumptions C40_removes_all.
Print Assumptions C40_quiet.
Print Assumptions C40_no_deadlock.
Print Assumptions C40_bounded.
Print Assumptions C40_returns.
Print Assumptions C40_only_inflight.
Print Assumptions C40_ex.
Print Assumptions C40_concurrent_watch_refuted.
