(** * C95: Close of the recursive tree on Windows *)
From Verif Require Import Base Event Readdcw SpecReaddcw ReaddcwClose SpecReaddcwClose ReaddcwCloseFacts RdTreeClose.
From Verif Require Import ReaddcwCloseFrozen.
From Verif Require Prop_ReaddcwClose.

Definition wreach (may_fail may_watch : bool) (s : wst) : Prop := rtc (wstep may_fail may_watch) winit s.

(** Before Close: the loop runs if and only if something was watched. *)
Definition fresh (s : cstate) : Prop := c_closer s = KNone ∧ (c_start s = false → c_port s = false ∧ c_rs s = rs_init).
Definition winv (s : wst) : Prop :=
  (∃ tr, cexec tr (w_s s)) ∧ (w_called s = false → fresh (w_s s) ∧ w_ret s = false) ∧ (w_called s = true → closing (w_s s)) ∧
  (w_ret s = true → c_port (w_s s) = false) ∧ (w_closed s = true → w_ret s = true) ∧ w_panic s = false.
Lemma fresh_step s l s' : fresh s → cstep s l s' → begins l = false → fresh s' ∧ returned l s' = false.
Proof.
  intros [F1 F2] Hs Hb. destruct Hs as [l r Hp Hr Hl|p e k Hi Hc|Hc Hst|order err Hc Hst Ho|err Hc Hp|err Hc|n m Hp Hpc Hk Hwg|err Hc Hwg]; try done; try congruence; cbn zeta.
  - split; [|done]. split; [done|]. cbn [c_start c_port c_rs]. intros [Hst Hn]%orb_false_elim. destruct (F2 Hst) as [Hport Hrs]. rewrite Hn, Hport. split; [done|].
    rewrite Hport in Hn. cbn [negb] in Hn. rewrite andb_true_r in Hn. specialize (Hl Hport). destruct l as [q ok0 ok1 res|?|?|?|?]; try done.
    remember (LReq q ok0 ok1 res) as l eqn:El. destruct Hr as [q' ok0' ok1' s' r' Hq| | | |]; try discriminate El.
    destruct (closing_request (c_rs s) q' ok0' ok1' s' r') as [->|(p&i&x&Ht&_)]; [|exact Hq|exact Hn|done|].
    + rewrite Hrs. intros p i Ht. cbn [rs_tab rs_init] in Ht. by rewrite lookup_empty in Ht.
    + rewrite Hrs in Ht. cbn [rs_tab rs_init] in Ht. by rewrite lookup_empty in Ht.
  - split; [|done]. split; [done|]. cbn [c_start c_port c_rs]. intros Hst. destruct (F2 Hst) as [? _]. congruence.
Qed.
Lemma nop_closing s : fresh s → cstep s KCloseNop s → closing s ∧ c_port s = false.
Proof.
  intros [F1 F2] Hs. remember KCloseNop as l eqn:E. destruct Hs as [| |Hc Hst| | | | |]; try discriminate E.
  destruct (F2 Hst) as [Hp Hr]. split; [|done]. split; [done|congruence|rewrite Hr; done|].
  rewrite Hr. intros p i Ht. cbn [rs_tab rs_init] in Ht. by rewrite lookup_empty in Ht.
Qed.
Lemma watches_spec l : watches l = is_watch l.
Proof. by destruct l as [[[]| | | |]| | | | | |]. Qed.
Lemma silent_one s l s' : closing s → c_port s = false → cstep s l s' → is_watch l = false → c_port s' = false ∧ rs_sent (c_rs s') = rs_sent (c_rs s).
Proof. intros C Hp Hs Hw. eapply (silent_steps s [l]); [done|done|by apply csteps_one|]. apply Forall_cons_2; [done|apply Forall_nil_2]. Qed.
Lemma winv_step s s' : winv s → wstep false false s s' → winv s'.
Proof.
  intros ([tr Hx]&I2&I3&I4&I5&I6) H. destruct H as [s l s' c r x d k Hs [Ha1 Ha2] Hb Hsent|s l s' c r d k Hs [Ha1 Ha2] Hne|s c r x k Hk|s c r k Hk|s c d k]; unfold winv in *;
    cbn [w_s w_called w_ret w_closed w_panic] in *; try (split_and!; eauto; done).
  - assert (∃ tr, cexec tr s') as Hx' by (exists (tr ++ [l]); by econstructor). split; [exact Hx'|]. destruct c; cbn [orb].
    + assert (is_watch l = false) as Hw by (rewrite <-watches_spec; destruct (watches l); [by specialize (Ha2 eq_refl eq_refl)|done]).
      specialize (I3 eq_refl). split_and!; try done; [intros _; by eapply closing_step| |intros Hc; by rewrite (I5 Hc)].
      intros Hr. destruct (c_port s') eqn:Hp'; [|done]. destruct r; [destruct (silent_one s l s' I3 (I4 eq_refl) Hs Hw); congruence|]. cbn [orb] in Hr.
      destruct l as [| |order e| |[]| |e]; cbn [returned] in Hr; try done.
      * by specialize (Hb eq_refl).
      * by specialize (Ha1 eq_refl).
      * exfalso. remember (KRet e) as l eqn:E. destruct Hs as [| | | | | | |e' Hc Hwg]; try discriminate E. cbn [c_port with_closer] in Hp'. pose proof (cg_wait _ I3 Hp' _ Hc). lia.
    + destruct (I2 eq_refl) as [F ->]. cbn [orb]. assert (x = false) as -> by (destruct x; [by specialize (I5 eq_refl)|done]). destruct (begins l) eqn:Hbl.
      * destruct l as [| |order e| |[]| |e]; try done.
        -- split_and!; try done. intros _. by eapply closing_begin.
        -- assert (s' = s) as -> by (remember KCloseNop as l eqn:E; by destruct Hs; try discriminate E). destruct (nop_closing s F Hs). by split_and!.
      * destruct (fresh_step s l s' F Hs Hbl) as [F' ->]. by split_and!.
  - exfalso. specialize (I4 (I5 eq_refl)). destruct c; [|destruct (I2 eq_refl) as [_ Hr]; rewrite (I5 eq_refl) in Hr; done].
    assert (is_watch l = false) as Hw by (rewrite <-watches_spec; destruct (watches l); [by specialize (Ha2 eq_refl eq_refl)|done]).
    by destruct (silent_one s l s' (I3 eq_refl) I4 Hs Hw).
Qed.
Lemma winv_reach s : wreach false false s → winv s.
Proof.
  intros H. apply (rtc_ind_r (R := wstep false false) winv winit); [|intros y z _ Hs IH; by eapply winv_step|exact H].
  unfold winv. cbn. split_and!; try done. exists []. constructor.
Qed.

(** If posting to the completion port does not fail and Watch is not called after Close,
    nothing is ever sent on the closed channel, whatever the OS reports and whether or not
    closing the handles failed: the program does not panic. *)
Theorem C95_no_panic_partial s : wreach false false s → w_panic s = false.
Proof. intros H. by destruct (winv_reach s H) as (_&_&_&_&_&?). Qed.
(** Nothing is sent once the channel is closed, in any case. *)
Theorem C95_nothing_after f w s s' : w_closed s = true → rtc (wstep f w) s s' → rs_sent (c_rs (w_s s')) = rs_sent (c_rs (w_s s)) ∧ w_closed s' = true.
Proof.
  intros Hc Hr. induction Hr as [|s s1 s' Hs Hr IH]; [done|].
  assert (rs_sent (c_rs (w_s s1)) = rs_sent (c_rs (w_s s)) ∧ w_closed s1 = true) as [E1 E2] by (destruct Hs; cbn in *; auto).
  rewrite <-E1. by apply IH.
Qed.

Lemma sent_grows s l s' : cstep s l s' → length (rs_sent (c_rs s)) ≤ length (rs_sent (c_rs s')).
Proof.
  intros Hs. destruct Hs as [l r Hp Hr Hl|p e k Hi Hc|Hc Hst|order err Hc Hst Ho|err Hc Hp|err Hc|n m Hp Hpc Hk Hwg|err Hc Hwg]; cbn zeta; cbn [c_rs with_closer]; try done.
  - destruct Hr as [q ok0 ok1 s' r Hq|g l l1 x l2 Hr Hg|g l l1 l2 gr wd Hpc Hq Hg Hw|g ok Hpc|g ok0 ok1 Hpc].
    + by rewrite (sent_request _ _ _ _ _ _ Hq).
    + done.
    + cbn [rs_sent set_pc set_sent]. rewrite app_length. lia.
    + cbn [rs_sent set_pc]. by rewrite read_sent.
    + unfold loopstate. change (rs_grips (set_pc (c_rs s) PWait)) with (rs_grips (c_rs s)). destruct (rs_grips (c_rs s) !! g) as [gr|]; [|done].
      change (rs_wds (set_pc (c_rs s) PWait)) with (rs_wds (c_rs s)). destruct (rs_wds (c_rs s) !! g_parent gr) as [x|]; [|done]. destruct (_ =? 0)%N; [done|]. destruct (_ =? 0)%N; [|done].
      destruct (_ =? stateRewatch)%N; [by rewrite recreate_sent|]. destruct (_ =? stateUnwatch)%N; [cbn [rs_sent set_tab]; by rewrite close_sent|by destruct (_ =? stateCPClose)%N].
  - by destruct (close_entries_spec order (c_rs s)) as (_&_&_&->&_).
Qed.
(** Every event sent is received by the dispatcher before it ends, ... *)
Theorem C95_all_received f w s : wreach f w s → w_took s ≤ length (rs_sent (c_rs (w_s s))) ∧
  (w_disp s = false → w_took s = length (rs_sent (c_rs (w_s s))) ∧ w_closed s = true).
Proof.
  intros H. apply (rtc_ind_r (R := wstep f w) (λ s, w_took s ≤ length (rs_sent (c_rs (w_s s))) ∧
    (w_disp s = false → w_took s = length (rs_sent (c_rs (w_s s))) ∧ w_closed s = true)) winit); [by split; [cbn; lia|]| |exact H].
  intros y z _ Hs [I1 I2]. destruct Hs as [s0 l s' c r x d k Hs _ _ Hsent|? ? ? ? ? ? ? Hs|?|?|?]; cbn in *; try (split; [lia|done]); try (by split).
  - pose proof (sent_grows _ _ _ Hs). split; [lia|]. intros Hd. destruct (I2 Hd) as [E Hx]. rewrite (Hsent Hx). done.
  - split; [done|]. intros Hd. by destruct (I2 Hd).
Qed.
(** ... and from every moment after Close it ends by itself after receiving what is left. *)
Theorem C95_dispatcher_ends f w s : wreach f w s → w_closed s = true → w_disp s = true → w_panic s = false →
  ∃ s', nsteps (wstep f w) (S (length (rs_sent (c_rs (w_s s))) - w_took s)) s s' ∧ w_disp s' = false ∧ w_took s' = length (rs_sent (c_rs (w_s s))).
Proof.
  intros H. destruct (C95_all_received f w s H) as [Hle _]. destruct s as [s c r x d k p]. cbn in *. intros -> -> ->. clear H.
  remember (length (rs_sent (c_rs s)) - k) as o eqn:Eo. revert k Eo Hle. induction o as [|o IH]; intros k Eo Hle.
  - exists (WS s c r true false k false). split; [|split; [done|cbn; lia]]. eapply nsteps_l; [apply w_end; lia|constructor].
  - destruct (IH (S k)) as (s'&Hs&Hd&Hk); [lia|lia|]. exists s'. split; [|done]. eapply nsteps_l; [|exact Hs]. apply w_take. lia.
Qed.

(** ** Instances *)
Import Prop_ReaddcwClose.
(** Steps that neither begin nor end a call of Close. *)
Definition plain (l : clabel) : bool := match l with KStep _ | KNoPort _ _ _ | KPosted true | KExit => true | _ => false end.
Lemma plain_steps f w c r d k tr : ∀ s, cruns s tr = true → forallb plain tr = true → (c = true → w = true ∨ forallb (λ l, negb (watches l)) tr = true) →
  rtc (wstep f w) (WS s c r false d k false) (WS (cfinal s tr) c r false d k false).
Proof.
  unfold cruns, cfinal. induction tr as [|l tr IH]; intros s; cbn [crun forallb]; [intros; apply rtc_refl|]. destruct (cnext s l) as [s1|] eqn:E; [|done].
  intros Hr [Hl Hp]%andb_prop Hw. apply cnext_step in E. eapply rtc_l.
  - pose proof (w_lib f w s l s1 c r false d k E) as K. assert (begins l = false) as Hb by (by destruct l as [| | | |[]| |]). assert (returned l s1 = false) as Ht by (by destruct l as [| | | |[]| |]).
    rewrite Hb, Ht, !orb_false_r in K. apply K; [|done|done]. split; [intros ->; done|]. intros Hc Hwa. destruct (Hw Hc) as [?|Hn]; [done|]. rewrite Hwa in Hn. done.
  - destruct (crun s1 tr) eqn:E1; [|done]. specialize (IH s1). rewrite E1 in IH. apply IH; [done|done|]. intros Hc. destruct (Hw Hc) as [?|Hn]; [by left|]. apply andb_prop in Hn as [_ Hn]. by right.
Qed.
(** The execution of [C83_ex_steps]: an event waits when Close is called; the loop sends it
    and ends, Close returns and the channel is closed; then the dispatcher receives the event
    and ends. *)
Example C95_ex : ∃ s s', wreach false false s ∧ w_closed s = true ∧ w_took s = 0 ∧
  rs_sent (c_rs (w_s s)) = [RdEvent dirA (b "x") fTypeFile (Create readdcw)] ∧
  rtc (wstep false false) s s' ∧ w_disp s' = false ∧ w_took s' = 1.
Proof.
  exists (WS s3C true true true true 0 false), (WS s3C true true true false 1 false). split; [|split_and!; try done; try by vm_compute].
  - eapply rtc_transitive; [apply (plain_steps _ _ false false true 0 (KStep <$> trC) cs_init); [by vm_compute|done|done]|].
    eapply rtc_l; [apply (w_lib _ _ s0C (KClose orderC false) s1C false false false true 0); [apply cfinal_step; by vm_compute|by split|done|done]|]. cbn [orb begins returned].
    eapply rtc_transitive; [apply (plain_steps _ _ true false true 0 trD s1C); [by vm_compute|done|by right]|].
    eapply rtc_l; [apply (w_lib _ _ s2C (KRet false) s3C true false false true 0); [apply cfinal_step; by vm_compute|by split|done|done]|]. cbn [orb begins returned].
    eapply rtc_l; [apply w_close|]. apply rtc_refl.
  - eapply rtc_l; [apply w_take; by vm_compute; lia|]. eapply rtc_l; [apply w_end; by vm_compute|]. apply rtc_refl.
Qed.
(** If posting to the port fails Close of the watcher returns the error and its loop goes on;
    the channel is closed all the same, and what was waiting when Close was called is sent on
    the closed channel: the program panics. *)
Theorem C95_failed_post_refuted : ∃ s, wreach true false s ∧ w_panic s = true.
Proof.
  set (s2 := cfinal s1C [KPosted false]). exists (WS s2 true true true true 0 true). split; [|done].
  eapply rtc_transitive; [apply (plain_steps _ _ false false true 0 (KStep <$> trC) cs_init); [by vm_compute|done|done]|].
  eapply rtc_l; [apply (w_lib _ _ s0C (KClose orderC false) s1C false false false true 0); [apply cfinal_step; by vm_compute|by split|done|done]|]. cbn [orb begins returned].
  eapply rtc_l; [apply (w_lib _ _ s1C (KPosted false) s2 true false false true 0); [apply cfinal_step; by vm_compute|by split|done|done]|].
  assert (returned (KPosted false) s2 = true) as -> by (by vm_compute). cbn [orb begins].
  eapply rtc_l; [apply w_close|].
  eapply rtc_l; [eapply (w_crash _ _ s2 (KStep (LTake 1 evA))); [apply cfinal_step; by vm_compute|by split|]|apply rtc_refl].
  assert (length (rs_sent (c_rs s2)) = 0) as E1 by (by vm_compute). assert (length (rs_sent (c_rs (cfinal s2 [KStep (LTake 1 evA)]))) = 1) as E2 by (by vm_compute). congruence.
Qed.
(** A Watch that reaches the watcher once its Close has returned starts a new loop, whose
    first event is sent on the closed channel; nothing in the tree prevents such a call. *)
Definition dirD : str := b "C:\D".
Definition trW : list clabel := [KStep (LReq (QWatch dirD (Create readdcw) false) true true true); KStep (LData 6 evA)].
Theorem C95_watch_after_refuted : ∃ s, wreach false true s ∧ w_panic s = true.
Proof.
  set (s4 := cfinal s3C trW). exists (WS s4 true true true true 0 true). split; [|done].
  eapply rtc_transitive; [apply (plain_steps _ _ false false true 0 (KStep <$> trC) cs_init); [by vm_compute|done|done]|].
  eapply rtc_l; [apply (w_lib _ _ s0C (KClose orderC false) s1C false false false true 0); [apply cfinal_step; by vm_compute|by split|done|done]|]. cbn [orb begins returned].
  eapply rtc_transitive; [apply (plain_steps _ _ true false true 0 trD s1C); [by vm_compute|done|by right]|].
  eapply rtc_l; [apply (w_lib _ _ s2C (KRet false) s3C true false false true 0); [apply cfinal_step; by vm_compute|by split|done|done]|]. cbn [orb begins returned].
  eapply rtc_transitive; [apply (plain_steps _ _ true true true 0 trW s3C); [by vm_compute|done|by left]|].
  eapply rtc_l; [apply w_close|].
  eapply rtc_l; [eapply (w_crash _ _ s4 (KStep (LTake 6 evA))); [apply cfinal_step; by vm_compute|by split|]|apply rtc_refl].
  assert (length (rs_sent (c_rs s4)) = 1) as E1 by (by vm_compute). assert (length (rs_sent (c_rs (cfinal s4 [KStep (LTake 6 evA)]))) = 2) as E2 by (by vm_compute). congruence.
Qed.
