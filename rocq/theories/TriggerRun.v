(** * TriggerRun: the tables agree after every history; the rescan. *)
From Verif Require Import Base Event Paths Clean Trigger SpecTrigger TriggerFacts TriggerTab.
Local Open Scope N_scope.

Section run.
Context (T : trig).

Lemma walk_fold_inv f s ls s' r : tinv T s → (∀ s fi s' r, tinv T s → f s fi = (s', r) → tinv T s') → walk_fold f s ls = (s', r) → tinv T s'.
Proof.
  intros Hi Hf. revert s Hi. induction ls as [|fi ls IH]; intros s Hi H; cbn [walk_fold] in H.
  - by apply pair_equal_spec in H as [<- _].
  - destruct (f s fi) as [s1 r1] eqn:E. pose proof (Hf _ _ _ _ Hi E) as H1. destruct r1; [by eapply IH|apply pair_equal_spec in H as [<- _]; done..].
Qed.
Lemma walk_inv s A p f s' r : tinv T s → (∀ s fi s' r, tinv T s → f s fi = (s', r) → tinv T s') → walk s A p f = (s', r) → tinv T s'.
Proof.
  intros Hi Hf H. unfold walk in H. destruct (a_ls A p) as [ls|]; [by eapply walk_fold_inv|]. by apply pair_equal_spec in H as [<- _].
Qed.
Lemma watch_entry_inv A p e s fi s' r : fresh_fd A → tinv T s → watch_entry T A p e s fi = (s', r) → tinv T s'.
Proof.
  intros HA Hi H. unfold watch_entry in H. destruct (singlewatch _ _ _ _ _ _ _) as [s1 r1] eqn:E. apply pair_equal_spec in H as [<- _].
  by eapply singlewatch_inv.
Qed.
Lemma trg_watch_inv s A p e d s' r : fresh_fd A → tinv T s → trg_watch T s A p e d = (s', r) → tinv T s'.
Proof.
  intros HA Hi H. unfold trg_watch in H. destruct (singlewatch _ _ _ _ _ _ _) as [s1 r1] eqn:E.
  assert (tinv T s1) as H1 by (by eapply singlewatch_inv).
  assert ((if d then walk s1 A p (watch_entry T A p e) else (s1, ROk)) = (s', r) → tinv T s') as K.
  { destruct d; [|intros [<- _]%pair_equal_spec; done]. apply walk_inv; [done|]. intros. by eapply watch_entry_inv. }
  destruct r1; first [by apply K | apply pair_equal_spec in H as [<- _]; done].
Qed.
Lemma unwatch_entry_inv A p s fi s' r : tinv T s → unwatch_entry T A p s fi = (s', r) → tinv T s'.
Proof.
  intros Hi H. unfold unwatch_entry in H. destruct (singleunwatch _ _ _ _ _) as [s1 r1] eqn:E. apply pair_equal_spec in H as [<- _].
  by eapply singleunwatch_inv.
Qed.
Lemma trg_unwatch_inv s A p d s' r : tinv T s → trg_unwatch T s A p d = (s', r) → tinv T s'.
Proof.
  intros Hi H. unfold trg_unwatch in H.
  destruct (if d then walk s A p (unwatch_entry T A p) else (s, ROk)) as [s1 r1] eqn:E.
  assert (tinv T s1) as H1.
  { destruct d; [|by apply pair_equal_spec in E as [<- _]]. eapply walk_inv; [done| |exact E]. intros. by eapply unwatch_entry_inv. }
  destruct r1; [by eapply singleunwatch_inv|apply pair_equal_spec in H as [<- _]; done..].
Qed.
Lemma watch_call_inv s i w A e s' r : tinv T s → ts_heap s !! i = Some w → t_Watch T s A i e = (s', r) → tinv T s' ∧ ts_path s' = ts_path s ∧ ts_heap s' = ts_heap s ∧ ts_id s' = ts_id s.
Proof.
  intros Hi Hw H. unfold t_Watch in H. rewrite Hw in H. destruct (a_watch A (tw_p w)); [|apply pair_equal_spec in H as [<- _]; done..].
  destruct (live T s w) eqn:Hl; apply pair_equal_spec in H as [<- _]; [|done]. split; [|done]. apply tinv_reg_insert; [done|].
  intros HT. unfold live in Hl. rewrite HT in Hl. by apply bool_decide_eq_true in Hl.
Qed.
Lemma moved1_inv A w e s evn k s' evn' : tinv T s → dir_moved1 T A w e (s, evn) k = (s', evn') → tinv T s'.
Proof.
  intros Hi H. unfold dir_moved1 in H. destruct (has_prefix _ _); [|by apply pair_equal_spec in H as [<- _]].
  apply pair_equal_spec in H as [<- _]. destruct (singleunwatch T s A k MBoth) as [s1 r1] eqn:E. by eapply singleunwatch_inv.
Qed.
Lemma has_prefix_ne p k : has_prefix (p ++ [slash]) k = true → k ≠ p.
Proof.
  unfold has_prefix. rewrite bool_decide_eq_true. intros H ->. apply (f_equal length) in H. rewrite take_length, app_length in H. cbn in H. lia.
Qed.
Lemma moved_inv A w e ord s evn s' evn' : tinv T s → foldl (dir_moved1 T A w e) (s, evn) ord = (s', evn') →
  tinv T s' ∧ same_at T s s' (tw_p w).
Proof.
  revert s evn. induction ord as [|k ord IH]; intros s evn Hi H; cbn [foldl] in H.
  - apply pair_equal_spec in H as [<- _]. split; [done|apply same_refl].
  - destruct (dir_moved1 T A w e (s, evn) k) as [s1 evn1] eqn:E. pose proof (moved1_inv _ _ _ _ _ _ _ _ Hi E) as H1.
    destruct (IH s1 evn1 H1 H) as [H2 H3]. split; [done|]. eapply same_trans; [|exact H3].
    unfold dir_moved1 in E. destruct (has_prefix _ _) eqn:Hpre; [|apply pair_equal_spec in E as [<- _]; apply same_refl].
    apply pair_equal_spec in E as [<- _]. destruct (singleunwatch T s A k MBoth) as [s2 r2] eqn:E2.
    eapply singleunwatch_same; [done|exact E2|]. by apply has_prefix_ne.
Qed.
Lemma rescan1_inv A w s evn fi s' evn' : fresh_fd A → tinv T s → rescan1 T A w (s, evn) fi = (s', evn') → tinv T s'.
Proof.
  intros HA Hi H. unfold rescan1 in H. destruct (singlewatch T s A _ _ _ _) as [s1 r1] eqn:E. apply pair_equal_spec in H as [<- _].
  by eapply singlewatch_inv.
Qed.
Lemma rescan_inv A w ls s evn s' evn' : fresh_fd A → tinv T s → foldl (rescan1 T A w) (s, evn) ls = (s', evn') → tinv T s'.
Proof.
  intros HA. revert s evn. induction ls as [|fi ls IH]; intros s evn Hi H; cbn [foldl] in H.
  - by apply pair_equal_spec in H as [<- _].
  - destruct (rescan1 T A w (s, evn) fi) as [s1 evn1] eqn:E. eapply IH; [|exact H]. by eapply rescan1_inv.
Qed.
Lemma del_gone s i w : ts_heap s !! i = Some w → ts_path (t_Del T s i) !! tw_p w = None ∧ (t_fds T = true → ts_id (t_Del T s i) !! tw_fd w = None) ∧ ts_heap (t_Del T s i) = ts_heap s.
Proof.
  intros Hw. unfold t_Del. rewrite Hw. destruct (t_fds T); cbn; rewrite ?lookup_delete; done.
Qed.
Lemma Watched_path s k i : tinv T s → t_Watched T s k = Some i → ∃ w, ts_heap s !! i = Some w ∧ ts_path s !! tw_p w = Some i ∧ ident_of T w = k.
Proof.
  intros Hi H. unfold t_Watched in H. unfold ident_of. destruct k as [fd|p], (t_fds T) eqn:HT; try done.
  - destruct (ti_id _ _ Hi _ _ H) as (_&w&Hw&Hf&Hp). exists w. by rewrite Hf.
  - destruct (ti_path _ _ Hi _ _ H) as (w&Hw&Hp&_). exists w. by rewrite Hp.
Qed.
Lemma process_inv s st A ord k ge s' evn : fresh_fd A → tinv T s → trg_process T s st A ord k ge = (s', evn) → tinv T s'.
Proof.
  intros HA Hi0 H. unfold trg_process in H.
  set (s0 := if t_fds T then s else set_reg s (delete k (ts_reg s))) in *.
  assert (tinv T s0) as Hi by (unfold s0; destruct (t_fds T); [done|by apply tinv_reg_delete]). clearbody s0. clear Hi0.
  destruct (t_Watched T s0 k) as [i|] eqn:Hk; [|by apply pair_equal_spec in H as [<- _]].
  destruct (Watched_path s0 k i Hi Hk) as (w&Hw&Hp&_). rewrite Hw in H. cbv zeta in H.
  destruct (ge .& native_gone T =? 0) eqn:Hg; cbn [negb] in H.
  - match type of H with (if _ then (?x, _) else _) = _ => set (s1 := x) in * end.
    assert (tinv T s1) as H1.
    { unfold s1. destruct st as [d|]; [|done]. destruct (t_Watch T s0 A i _) as [s2 r2] eqn:E.
      destruct (watch_call_inv _ _ _ _ _ _ _ Hi Hw E) as (H2&H3&H4&H5). destruct r2; [done|eapply del_inv; [done|by rewrite H3|by rewrite H4]..]. }
    clearbody s1. destruct ((_ =? 0) && _); [by apply pair_equal_spec in H as [<- _]|].
    destruct (tw_dir w); [|by apply pair_equal_spec in H as [<- _]].
    destruct (trg_dir T s1 A ord i w _ ge) as [s2 evn2] eqn:E. apply pair_equal_spec in H as [<- _].
    unfold trg_dir in E. rewrite Hg in E. cbn [negb] in E. destruct (nonzero (ge .& t_write T)); [|by apply pair_equal_spec in E as [<- _]].
    destruct (a_ls A (tw_p w)); [by eapply rescan_inv|]. by apply pair_equal_spec in E as [<- _].
  - destruct ((_ =? 0) && _); [by apply pair_equal_spec in H as [<- _]|].
    destruct (tw_dir w).
    + destruct (trg_dir T s0 A ord i w _ ge) as [s2 evn2] eqn:E. apply pair_equal_spec in H as [<- _].
      unfold trg_dir in E. rewrite Hg in E. cbn [negb] in E.
      destruct (if nonzero (ge .& t_rename T) then _ else _) as [s3 evn3] eqn:E3. apply pair_equal_spec in E as [<- _].
      assert (tinv T s3 ∧ same_at T s0 s3 (tw_p w)) as [H3 H4].
      { destruct (nonzero (ge .& t_rename T)); [by eapply moved_inv|]. apply pair_equal_spec in E3 as [<- _]. split; [done|apply same_refl]. }
      pose proof (sa_path _ _ _ _ H4) as Hp3. rewrite Hp in Hp3.
      pose proof (sa_tw _ _ _ _ H4) as Hw3. unfold tw_at in Hw3. rewrite Hp, Hp3 in Hw3. cbn in Hw3. rewrite Hw in Hw3.
      destruct (del_gone s3 i w Hw3) as (G1&G2&G3).
      eapply del_again_inv; [by eapply del_inv|by rewrite G3|done|done].
    + apply pair_equal_spec in H as [<- _]. by eapply del_inv.
Qed.
Lemma tstep_inv s l s' : tinv T s → label_ok l → tstep T s l s' → tinv T s'.
Proof.
  intros Hi Hl H. destruct H as [st A p e s' r H|st A p s' r H|st A A' p e s' r H|st A ord k ge s' evn Ho H]; cbn in Hl.
  - unfold trg_Watch in H. destruct st; [by eapply trg_watch_inv|by apply pair_equal_spec in H as [<- _]].
  - unfold trg_Unwatch in H. destruct st; [by eapply trg_unwatch_inv|by apply pair_equal_spec in H as [<- _]].
  - unfold trg_Rewatch in H. destruct st; [|by apply pair_equal_spec in H as [<- _]]. destruct Hl as [_ Hl].
    destruct (trg_unwatch T s A p b) as [s1 r1] eqn:E. assert (tinv T s1) as H1 by (by eapply trg_unwatch_inv).
    destruct r1; [|apply pair_equal_spec in H as [<- _]; done..]. apply pair_equal_spec in H as [<- _].
    destruct (trg_watch T s1 A' p e b) as [s2 r2] eqn:E2. by eapply trg_watch_inv.
  - by eapply process_inv.
Qed.
Lemma texec_inv tr s : texec T tr s → tinv T s.
Proof. induction 1 as [|tr s l s' He IH Hl Hs]; [apply tinv_init|by eapply tstep_inv]. Qed.
End run.
