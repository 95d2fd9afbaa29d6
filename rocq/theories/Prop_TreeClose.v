(** * C94: Close of the non-recursive tree *)
From Verif Require Import Base TreeClose.
From Verif Require TriggerClose InotifyConc Prop_InotifyConc.
Import TriggerClose.

(** ** kqueue and FEN *)
Section trigger.
Context (cap : nat).
Definition treach (may_fail : bool) (s : tst) : Prop := rtc (tstep cap may_fail) tinit s.

(** Once the watcher's Close is past Stop without error the monitor has ended before it
    returns. *)
Definition tinv (s : tst) : Prop :=
  (0 < sq (t_w s) → mc (t_w s) = MExit) ∧ (cc (t_w s) = CClean ∨ cc (t_w s) = CRet → mc (t_w s) = MExit) ∧
  (t_closed s = true → cc (t_w s) = CRet) ∧ t_panic s = false.
Lemma watcher_inv a w w' : cstep cap a w w' → ¬ (cc w = CStop ∧ cc w' = CRet) →
  (0 < sq w → mc w = MExit) → (cc w = CClean ∨ cc w = CRet → mc w = MExit) →
  (0 < sq w' → mc w' = MExit) ∧ (cc w' = CClean ∨ cc w' = CRet → mc w' = MExit) ∧ (cc w = CRet → cc w' = CRet).
Proof.
  intros H Hf I1 I2.
  destruct H; cbn in *; split_and!; intros; try reflexivity; try discriminate; try lia; try tauto.
  all: try (destruct Hf; by split).
  all: try (specialize (I1 ltac:(lia)); congruence).
  all: try (specialize (I2 ltac:(tauto)); congruence).
  all: try (destruct H; discriminate).
Qed.
Lemma tinv_step s s' : tinv s → tstep cap false s s' → tinv s'.
Proof.
  intros (I1&I2&I3&I4) H. destruct H as [a w w' d n k c Hs Ha Hf Ho|w w' d n k Hs Ho|w i d n k Hm|w w' c n k Hs|w n k Ho|w d n k Hc]; unfold tinv in *; cbn in *.
  - destruct (watcher_inv a w w' Hs) as (J1&J2&J3); [intros Hx; by specialize (Hf Hx)|done|done|]. split_and!; try done. intros Hx. by apply J3, I3.
  - destruct (watcher_inv Monitor w w' Hs) as (J1&J2&J3); [intros [Hx Hy]; inversion Hs; subst; cbn in *; congruence|done|done|]. by split_and!.
  - exfalso. rewrite (I2 (or_intror (I3 eq_refl))) in Hm. discriminate Hm.
  - destruct (watcher_inv Receiver w w' Hs) as (J1&J2&J3); [intros [Hx Hy]; inversion Hs; subst; cbn in *; congruence|done|done|]. split_and!; try done. intros Hx. by apply J3, I3.
  - by split_and!.
  - by split_and!.
Qed.
Lemma tinv_reach s : treach false s → tinv s.
Proof.
  intros H. apply (rtc_ind_r (R := tstep cap false) (λ s, tinv s) tinit); [|intros y z _ Hs IH; by eapply tinv_step|exact H].
  unfold tinv. cbn. split_and!; intros; try done; try lia. by destruct H0.
Qed.

(** Close of the tree: if Stop of the trigger does not fail nothing is ever sent on the
    closed channel, whatever calls of the watcher are under way and whatever the OS
    reports: the program does not panic. *)
Theorem C94_no_panic_partial s : treach false s → t_panic s = false.
Proof. intros H. by destruct (tinv_reach s H) as (_&_&_&?). Qed.
(** ... nor is anything sent once the channel is closed ... *)
Theorem C94_nothing_after s s' : treach false s → t_closed s = true → rtc (tstep cap false) s s' → t_sent s' = t_sent s ∧ t_closed s' = true.
Proof.
  intros H Hc Hr. induction Hr as [|s s1 s' Hs Hr IH]; [done|].
  assert (treach false s1) as H1 by (eapply rtc_r; [exact H|exact Hs]).
  assert (t_sent s1 = t_sent s ∧ t_closed s1 = true) as [E1 E2] by (destruct Hs; cbn in *; done).
  rewrite <-E1. by apply IH.
Qed.
(** ... every event sent before is received by the dispatcher before it ends, whether or not
    Stop failed, ... *)
Lemma count_step b s s' : tstep cap b s s' → t_took s + out (t_w s) = t_sent s → t_took s' + out (t_w s') = t_sent s'.
Proof.
  intros H Hc. destruct H as [? w w' ? ? ? ? Hs ? ? Ho|w w' ? ? ? Hs Ho|?|w w' ? ? ? Hs|?|?]; cbn in *; try done; try lia.
  inversion Hs; subst; cbn in *; lia.
Qed.
Lemma count_reach b s : treach b s → t_took s + out (t_w s) = t_sent s.
Proof.
  intros H. apply (rtc_ind_r (R := tstep cap b) (λ s, t_took s + out (t_w s) = t_sent s) tinit); [done|intros y z _ Hs IH; by eapply count_step|exact H].
Qed.
Theorem C94_all_received b s : treach b s → t_disp s = false → t_took s = t_sent s ∧ t_closed s = true.
Proof.
  intros H Hd. assert ((t_closed s = true ∧ out (t_w s) = 0) ∨ t_disp s = true) as [[Hc Ho]|?]; [|pose proof (count_reach b s H); split; [lia|done]|congruence].
  apply (rtc_ind_r (R := tstep cap b) (λ s, (t_closed s = true ∧ out (t_w s) = 0) ∨ t_disp s = true) tinit); [by right| |exact H].
  intros y z _ Hs IH. destruct Hs as [? w w' ? ? ? ? Hs ? ? Ho|w w' ? ? ? Hs Ho|?|w w' ? ? ? Hs|?|?]; cbn in *; try done; try (by right).
  - rewrite Ho. exact IH.
  - destruct IH as [[? _]|?]; [done|by right].
  - by left.
  - destruct IH as [[? _]|?]; [done|by right].
Qed.
(** ... and from every moment after Close the dispatcher ends after receiving what is left:
    none of its steps needs anybody else's. *)
Theorem C94_dispatcher_ends b s : treach b s → t_closed s = true → t_disp s = true → t_panic s = false →
  ∃ s', nsteps (tstep cap b) (S (t_sent s - t_took s)) s s' ∧ t_disp s' = false ∧ t_took s' = t_sent s.
Proof.
  intros H. pose proof (count_reach b s H) as Hc. destruct s as [w c d n k p]. cbn in *. intros -> -> ->. clear H.
  assert (n - k = out w) as -> by lia. remember (out w) as o eqn:Eo. revert k w Eo Hc. induction o as [|o IH]; intros k w Eo Hc.
  - exists (TS w true false n k false). split; [|split; [done|cbn; lia]]. eapply nsteps_l; [by apply t_end|constructor].
  - destruct w as [c0 m h pe q sc o']. cbn in Eo. subst o'. destruct (IH (S k) (CS c0 m h pe q sc o) eq_refl) as (s'&Hs&Hd&Hk); [cbn in *; lia|].
    exists s'. split; [|done]. eapply nsteps_l; [|exact Hs]. apply t_take. apply SReceive.
Qed.
(** An instance: an event is sent, Close has returned and the channel is closed before the
    dispatcher receives it; it does, and ends. *)
Example C94_ex : 0 < cap → ∃ s s', treach false s ∧ t_closed s = true ∧ t_sent s = 1 ∧ t_took s = 0 ∧
  rtc (tstep cap false) s s' ∧ t_disp s' = false ∧ t_took s' = 1.
Proof.
  intros Hcap.
  exists (TS (CS CRet MExit None 0 true 0 1) true true 1 0 false), (TS (CS CRet MExit None 0 true 0 0) true false 1 1 false). split; [|split_and!; try done].
  - unfold treach, tinit, cinit.
    eapply rtc_l; [eapply t_other; [apply SFile|done|by intros [??]|done]|].
    eapply rtc_l; [eapply t_other; [apply SWaitFile|done|by intros [??]|done]|].
    eapply rtc_l; [eapply t_other; [apply SMonLock|done|by intros [??]|done]|].
    eapply rtc_l; [eapply t_other; [apply (SProc _ _ _ _ _ _ _ 1)|done|by intros [??]|done]|].
    eapply rtc_l; [eapply t_send; [apply SSend; lia|done]|].
    eapply rtc_l; [eapply t_other; [apply SSent|done|by intros [??]|done]|].
    eapply rtc_l; [eapply t_other; [apply SLock|done|by intros [??]|done]|].
    eapply rtc_l; [eapply t_other; [apply SStop|done|by intros [??]|done]|].
    eapply rtc_l; [eapply t_other; [apply SWaitStop|done|by intros [??]|done]|].
    eapply rtc_l; [eapply t_other; [apply SStopped|done|by intros [??]|done]|].
    eapply rtc_l; [eapply t_other; [apply SRecv|done|by intros [??]|done]|].
    eapply rtc_l; [eapply t_other; [apply SClean|done|by intros [??]|done]|].
    eapply rtc_l; [by apply t_close|]. apply rtc_refl.
  - eapply rtc_l; [eapply t_take, SReceive|]. eapply rtc_l; [by apply t_end|]. apply rtc_refl.
Qed.
(** If Stop of the trigger fails the watcher's Close returns with an error and its monitor
    goes on; the tree closes the channel all the same, and the next file event is sent on a
    closed channel: the program panics.  The caller of Close has had an error returned. *)
Theorem C94_failed_stop_refuted : ∃ s, treach true s ∧ t_panic s = true.
Proof.
  exists (TS (CS CRet (MSend 1) None 0 false 0 0) true true 0 0 true). split; [|done]. unfold treach, tinit, cinit.
  eapply rtc_l; [eapply t_other; [apply SLock|done|by intros [??]|done]|].
  eapply rtc_l; [eapply t_other; [apply SStopErr|done|done|done]|].
  eapply rtc_l; [by apply t_close|].
  eapply rtc_l; [eapply t_other; [apply SFile|done|by intros [??]|done]|].
  eapply rtc_l; [eapply t_other; [apply SWaitFile|done|by intros [??]|done]|].
  eapply rtc_l; [eapply t_other; [apply SMonLock|done|by intros [??]|done]|].
  eapply rtc_l; [eapply t_other; [apply (SProc _ _ _ _ _ _ _ 1)|done|by intros [??]|done]|].
  eapply rtc_l; [by eapply t_crash|]. apply rtc_refl.
Qed.
End trigger.

(** ** inotify *)
Definition ireach (s : ist) : Prop := rtc istep iinit s.
Lemma ireach_inv s : ireach s → InotifyConc.creach (i_s s) ∧ (i_closed s = true → InotifyConc.c_close (i_s s) = InotifyConc.KReturned) ∧
  i_panic s = false ∧ i_took s ≤ length (InotifyConc.c_out (i_s s)) ∧ (i_disp s = false → i_closed s = true ∧ i_took s = length (InotifyConc.c_out (i_s s))).
Proof.
  intros H. apply (rtc_ind_r (R := istep) (λ s, InotifyConc.creach (i_s s) ∧ (i_closed s = true → InotifyConc.c_close (i_s s) = InotifyConc.KReturned) ∧
    i_panic s = false ∧ i_took s ≤ length (InotifyConc.c_out (i_s s)) ∧ (i_disp s = false → i_closed s = true ∧ i_took s = length (InotifyConc.c_out (i_s s)))) iinit); [| |exact H].
  - cbn. split_and!; [constructor|done|done|lia|done].
  - clear s H. intros y z _ Hs (I1&I2&I3&I4&I5). destruct Hs as [s s' c d k Hs Hc|s s' c d k Hs|s j e l d k Hj|s c k Hk|s k Hk|s d k Hk]; cbn in *.
    + destruct c.
      { exfalso. destruct (Prop_InotifyConc.C40_quiet s I1 (I2 eq_refl)) as (_&_&_&Hn). by destruct (Hn s'). }
      split_and!; [eapply InotifyConc.cr_step; [exact I1|by left]|done|done| |intros Hd; by destruct (I5 Hd)].
      etrans; [exact I4|]. destruct Hs; cbn; rewrite ?app_length; cbn; lia.
    + destruct c.
      { exfalso. destruct (Prop_InotifyConc.C40_quiet s I1 (I2 eq_refl)) as (_&_&_&Hn). by destruct (Hn s'). }
      split_and!; [eapply InotifyConc.cr_step; [exact I1|by right]|done|done| |intros Hd; by destruct (I5 Hd)].
      etrans; [exact I4|]. by destruct Hs.
    + exfalso. destruct (Prop_InotifyConc.C40_quiet s I1 (I2 eq_refl)) as (_&Hf&_). by pose proof (Prop_InotifyConc.all_end_not _ _ _ Hf Hj).
    + split_and!; [done|done|done|lia|done].
    + by split_and!.
    + split_and!; try done. intros Hd. by destruct (I5 Hd).
Qed.
(** The same on Linux, if Close is called when the watcher has been started and no Watch is
    called meanwhile or later (see C40_concurrent_watch_refuted): no send on the closed
    channel, everything sent is received, and the dispatcher ends. *)
Theorem C94_inotify_no_panic_partial s : ireach s → i_panic s = false.
Proof. intros H. by destruct (ireach_inv s H) as (_&_&?&_). Qed.
Theorem C94_inotify_nothing_after s s' : ireach s → i_closed s = true → rtc istep s s' → i_s s' = i_s s.
Proof.
  intros H Hc Hr. induction Hr as [|s s1 s' Hs Hr IH]; [done|].
  assert (ireach s1) as H1 by (eapply rtc_r; [exact H|exact Hs]).
  destruct (ireach_inv s H) as (I1&I2&_). destruct (Prop_InotifyConc.C40_quiet _ I1 (I2 Hc)) as (_&_&_&Hn).
  assert (i_s s1 = i_s s ∧ i_closed s1 = true) as [E1 E2].
  { destruct Hs as [s s2 c d k Hs Hc'|s s2 c d k Hs| | | |]; cbn in *; try done; by destruct (Hn s2). }
  rewrite <-E1. by apply IH.
Qed.
Theorem C94_inotify_all_received s : ireach s → i_disp s = false → i_took s = length (InotifyConc.c_out (i_s s)).
Proof. intros H Hd. destruct (ireach_inv s H) as (_&_&_&_&K). by destruct (K Hd). Qed.
Theorem C94_inotify_dispatcher_ends s : ireach s → i_closed s = true → i_disp s = true →
  ∃ s', nsteps istep (S (length (InotifyConc.c_out (i_s s)) - i_took s)) s s' ∧ i_disp s' = false.
Proof.
  intros H Hc Hd. destruct (ireach_inv s H) as (_&_&Hp&Hk&_). destruct s as [w c d k p]. cbn in *. subst c d p. clear H.
  remember (length (InotifyConc.c_out w) - k) as o eqn:Eo. revert k Hk Eo. induction o as [|o IH]; intros k Hk Eo.
  - exists (IS w true false k false). split; [|done]. eapply nsteps_l; [apply i_end; lia|constructor].
  - destruct (IH (S k)) as (s'&Hs&Hd); [lia|lia|]. exists s'. split; [|done]. eapply nsteps_l; [apply i_take; lia|exact Hs].
Qed.
(** An instance: Close is called while the consumers have an event to send. *)
Lemma ireach_creach s : InotifyConc.creach s → ireach (IS s false true 0 false).
Proof.
  induction 1 as [|s s' _ IH [Hs|Hs]]; [apply rtc_refl|..]; (eapply rtc_r; [exact IH|]); [by apply i_lib|by apply i_os].
Qed.
Example C94_inotify_ex : ∃ s s', ireach s ∧ i_closed s = true ∧ length (InotifyConc.c_out (i_s s)) = 1 ∧ i_took s = 0 ∧
  rtc istep s s' ∧ i_disp s' = false ∧ i_took s' = 1.
Proof.
  destruct Prop_InotifyConc.C40_ex as (w&w'&n&Hw&_&Hn&Hc&_&Ho). pose proof (Prop_InotifyConc.creach_steps _ _ _ Hw Hn) as Hw'.
  exists (IS w' true true 0 false), (IS w' true false 1 false). cbn. rewrite Ho. split_and!; try done.
  - eapply rtc_r; [by apply ireach_creach|by apply i_close].
  - eapply rtc_l; [apply i_take; rewrite Ho; cbn; lia|]. eapply rtc_l; [apply i_end; by rewrite Ho|]. apply rtc_refl.
Qed.
Print Assumptions C94_no_panic_partial.
Print Assumptions C94_nothing_after.
Print Assumptions C94_all_received.
Print Assumptions C94_dispatcher_ends.
Print Assumptions C94_failed_stop_refuted.
Print Assumptions C94_inotify_no_panic_partial.
Print Assumptions C94_inotify_nothing_after.
Print Assumptions C94_inotify_all_received.
Print Assumptions C94_inotify_dispatcher_ends.
