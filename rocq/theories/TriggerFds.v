(** * TriggerFds: descriptors of the kqueue watcher. *)
From Verif Require Import Base Event Paths Clean Trigger SpecTrigger SpecTriggerFds TriggerFacts TriggerTab TriggerRun.
Local Open Scope N_scope.

Section fds.
Context (T : trig) (HT : t_fds T = true).
Record keeps (ok : Prop) (s s' : tstate) : Prop := {
  kp_stray : ts_stray s' = ts_stray s;
  kp_leak : ok → no_leak s → no_leak s';
}.
Lemma keeps_refl ok s : keeps ok s s.
Proof. by split. Qed.
Lemma keeps_trans ok s1 s2 s3 : keeps ok s1 s2 → keeps ok s2 s3 → keeps ok s1 s3.
Proof. intros [H1 H2] [H3 H4]. split; [congruence|auto]. Qed.
Lemma keeps_same ok s s' : ts_stray s' = ts_stray s → ts_open s' = ts_open s → ts_id s' = ts_id s → keeps ok s s'.
Proof. intros H1 H2 H3. split; [done|]. unfold no_leak. by rewrite H2, H3. Qed.
Lemma keeps_del ok s p i w : tinv T s → ts_path s !! p = Some i → ts_heap s !! i = Some w → keeps ok s (t_Del T s i).
Proof.
  intros Hi Hp Hw. destruct (ti_path _ _ Hi p i Hp) as (x&Hx&_&Hf). rewrite Hw in Hx. injection Hx as <-. destruct (Hf HT) as [Hf1 Hf2].
  unfold t_Del. rewrite Hw, HT. split; cbn.
  - by rewrite bool_decide_eq_true_2.
  - intros _ Hl fd. cbn. rewrite elem_of_difference, elem_of_singleton. intros [H1 H2]. rewrite lookup_delete_ne by done. by apply Hl.
Qed.
Lemma keeps_singlewatch s A p e m d s' r : tinv T s → singlewatch T s A p e m d = (s', r) → keeps (registers A) s s'.
Proof.
  intros Hi H. destruct (ts_path s !! p) as [i|] eqn:Hp.
  - destruct (ti_path _ _ Hi p i Hp) as (w&Hw&_). rewrite (singlewatch_known T s A p e m d i w Hi Hp Hw) in H.
    destruct (a_watch A p); apply pair_equal_spec in H as [<- _]; by apply keeps_same.
  - rewrite (singlewatch_new T s A p e m d Hp) in H. destruct (opens T A p); [|apply pair_equal_spec in H as [<- _]; apply keeps_refl..].
    cbv zeta in H. destruct (a_watch A p) eqn:Ha; apply pair_equal_spec in H as [<- _]; (split; [done|]).
    + intros _ Hl fd. unfold recorded_state, record, alloc, set_reg. cbn. rewrite HT. rewrite add_role_fd. cbn [new_tw tw_fd].
      rewrite elem_of_union, elem_of_singleton. intros [->|Hfd]; [rewrite lookup_insert; eauto|].
      destruct (decide (new_fd T s A = fd)) as [->|Hne]; [rewrite lookup_insert; eauto|]. rewrite lookup_insert_ne by done. by apply Hl.
    + intros Hr. by rewrite Hr in Ha.
    + intros Hr. by rewrite Hr in Ha.
Qed.
Lemma keeps_singleunwatch s A p m s' r : tinv T s → singleunwatch T s A p m = (s', r) → keeps (registers A) s s'.
Proof.
  intros Hi H. destruct (ts_path s !! p) as [i|] eqn:Hp.
  - destruct (ti_path _ _ Hi p i Hp) as (w&Hw&Hwp&_). rewrite (singleunwatch_known T s A p m i w Hi Hp Hw) in H. cbv zeta in H.
    assert (tinv T (unreg_state T s i (clear_role m w))) as K2 by (eapply unreg_inv; [done..|apply clear_role_p|apply clear_role_fd]).
    assert (ts_heap (unreg_state T s i (clear_role m w)) !! i = Some (clear_role m w)) as Hw' by apply lookup_insert.
    destruct (a_unwatch A p); [|apply pair_equal_spec in H as [<- _]; by apply keeps_same..].
    destruct (ts_reg s !! ident_of T w); [|apply pair_equal_spec in H as [<- _]; by apply keeps_same].
    destruct (nonzero (tw_e (clear_role m w))).
    + destruct (a_watch A p); apply pair_equal_spec in H as [<- _]; by apply keeps_same.
    + apply pair_equal_spec in H as [<- _]. eapply keeps_trans; [|eapply keeps_del; [exact K2|exact Hp|exact Hw']]. by apply keeps_same.
  - unfold singleunwatch in H. rewrite Hp in H. apply pair_equal_spec in H as [<- _]. apply keeps_refl.
Qed.
Lemma keeps_walk ok s A p f s' r : tinv T s → (∀ s fi s' r, tinv T s → f s fi = (s', r) → tinv T s' ∧ keeps ok s s') → walk s A p f = (s', r) → keeps ok s s'.
Proof.
  intros Hi Hf H. unfold walk in H. destruct (a_ls A p) as [ls|]; [|apply pair_equal_spec in H as [<- _]; apply keeps_refl].
  revert s Hi H. induction ls as [|fi ls IH]; intros s Hi H; cbn [walk_fold] in H.
  - apply pair_equal_spec in H as [<- _]. apply keeps_refl.
  - destruct (f s fi) as [s1 r1] eqn:E. destruct (Hf _ _ _ _ Hi E) as [H1 H2].
    destruct r1; [eapply keeps_trans; [exact H2|by apply IH]|apply pair_equal_spec in H as [<- _]; done..].
Qed.
Lemma keeps_watch s A p e d s' r : fresh_fd A → tinv T s → trg_watch T s A p e d = (s', r) → keeps (registers A) s s'.
Proof.
  intros HA Hi H. unfold trg_watch in H. destruct (singlewatch _ _ _ _ _ _ _) as [s1 r1] eqn:E.
  assert (tinv T s1) as H1 by (by eapply singlewatch_inv). assert (keeps (registers A) s s1) as K1 by (by eapply keeps_singlewatch).
  assert ((if d then walk s1 A p (watch_entry T A p e) else (s1, ROk)) = (s', r) → keeps (registers A) s s') as K.
  { destruct d; [|intros [<- _]%pair_equal_spec; done]. intros Hw. eapply keeps_trans; [exact K1|]. eapply keeps_walk; [exact H1| |exact Hw].
    clear - HA HT. intros s fi s' r Hi H. split; [by eapply watch_entry_inv|]. unfold watch_entry in H. destruct (singlewatch _ _ _ _ _ _ _) as [s1 r1] eqn:E.
    apply pair_equal_spec in H as [<- _]. by eapply keeps_singlewatch. }
  destruct r1; first [by apply K | apply pair_equal_spec in H as [<- _]; done].
Qed.
Lemma keeps_unwatch s A p d s' r : tinv T s → trg_unwatch T s A p d = (s', r) → keeps (registers A) s s'.
Proof.
  intros Hi H. unfold trg_unwatch in H.
  destruct (if d then walk s A p (unwatch_entry T A p) else (s, ROk)) as [s1 r1] eqn:E.
  assert (tinv T s1 ∧ keeps (registers A) s s1) as [H1 K1].
  { destruct d; [|apply pair_equal_spec in E as [<- _]; split; [done|apply keeps_refl]]. split.
    - eapply walk_inv; [done| |exact E]. intros. by eapply unwatch_entry_inv.
    - eapply keeps_walk; [exact Hi| |exact E]. clear - HT. intros s fi s' r Hi H. split; [by eapply unwatch_entry_inv|]. unfold unwatch_entry in H.
      destruct (singleunwatch _ _ _ _ _) as [s1 r1] eqn:E. apply pair_equal_spec in H as [<- _]. by eapply keeps_singleunwatch. }
  destruct r1; [eapply keeps_trans; [exact K1|by eapply keeps_singleunwatch]|apply pair_equal_spec in H as [<- _]; done..].
Qed.
Lemma keeps_moved A w e ord s evn s' evn' : tinv T s → foldl (dir_moved1 T A w e) (s, evn) ord = (s', evn') → keeps (registers A) s s'.
Proof.
  revert s evn. induction ord as [|k ord IH]; intros s evn Hi H; cbn [foldl] in H.
  - apply pair_equal_spec in H as [<- _]. apply keeps_refl.
  - destruct (dir_moved1 T A w e (s, evn) k) as [s1 evn1] eqn:E. pose proof (moved1_inv _ _ _ _ _ _ _ _ _ Hi E) as H1.
    eapply keeps_trans; [|by eapply IH]. unfold dir_moved1 in E. destruct (has_prefix _ _); [|apply pair_equal_spec in E as [<- _]; apply keeps_refl].
    apply pair_equal_spec in E as [<- _]. destruct (singleunwatch T s A k MBoth) as [s2 r2] eqn:E2. by eapply keeps_singleunwatch.
Qed.
Lemma keeps_rescan A w ls s evn s' evn' : fresh_fd A → tinv T s → foldl (rescan1 T A w) (s, evn) ls = (s', evn') → keeps (registers A) s s'.
Proof.
  intros HA. revert s evn. induction ls as [|fi ls IH]; intros s evn Hi H; cbn [foldl] in H.
  - apply pair_equal_spec in H as [<- _]. apply keeps_refl.
  - destruct (rescan1 T A w (s, evn) fi) as [s1 evn1] eqn:E. eapply keeps_trans; [|eapply IH; [by eapply rescan1_inv|exact H]].
    unfold rescan1 in E. destruct (singlewatch T s A _ _ _ _) as [s2 r2] eqn:E2. apply pair_equal_spec in E as [<- _]. by eapply keeps_singlewatch.
Qed.
Lemma keeps_process s st A ord k ge s' evn : fresh_fd A → tinv T s → trg_process T s st A ord k ge = (s', evn) →
  (ts_stray s' = ts_stray s ∧ ¬ (∃ w, dir_gone T s k ge w) ∨ ∃ w, dir_gone T s k ge w ∧ ts_stray s' = tw_fd w :: ts_stray s) ∧ (registers A → no_leak s → no_leak s').
Proof.
  intros HA Hi H. unfold trg_process in H. rewrite HT in H.
  assert (keeps (registers A) s s' → ¬ (∃ w, dir_gone T s k ge w) → (ts_stray s' = ts_stray s ∧ ¬ (∃ w, dir_gone T s k ge w) ∨ ∃ w, dir_gone T s k ge w ∧ ts_stray s' = tw_fd w :: ts_stray s) ∧ (registers A → no_leak s → no_leak s')) as Done.
  { intros [K1 K2] Hn. split; [by left|done]. }
  destruct (t_Watched T s k) as [i|] eqn:Hk.
  2:{ apply pair_equal_spec in H as [<- _]. apply Done; [apply keeps_refl|]. intros (w&[Hat Hid]&_). apply tw_at_Some in Hat as (i&Hp&Hw).
      destruct (ti_path _ _ Hi _ _ Hp) as (x&Hx&_&Hf). rewrite Hw in Hx. injection Hx as <-. unfold t_Watched, ident_of in *. rewrite HT in *. subst k.
      destruct (Hf eq_refl) as [Hf1 _]. congruence. }
  destruct (Watched_path T s k i Hi Hk) as (w&Hw&Hp&Hid). rewrite Hw in H. cbv zeta in H.
  assert (∀ w', dir_gone T s k ge w' → w' = w) as Huniq.
  { intros w' ([Hat Hid']&_). apply tw_at_Some in Hat as (j&Hj&Hw'). destruct (ti_path _ _ Hi _ _ Hj) as (x&Hx&_&Hf). rewrite Hw' in Hx. injection Hx as <-.
    destruct (Hf HT) as [Hf1 _]. destruct (ti_path _ _ Hi _ _ Hp) as (y&Hy&_&Hg). rewrite Hw in Hy. injection Hy as <-. destruct (Hg HT) as [Hg1 _].
    unfold ident_of in *. rewrite HT in *. assert (tw_fd w' = tw_fd w) as E by congruence. rewrite E, Hg1 in Hf1. injection Hf1 as ->. congruence. }
  assert (ge .& native_gone T = 0 → ¬ (∃ w, dir_gone T s k ge w)) as Hng by (intros Hz (w'&_&_&Hg&_); apply Hg; exact Hz).
  destruct (ge .& native_gone T =? 0) eqn:Hg; cbn [negb] in H.
  - apply Done; [|apply Hng; by apply N.eqb_eq].
    match type of H with (if _ then (?x, _) else _) = _ => set (s1 := x) in * end.
    assert (tinv T s1 ∧ keeps (registers A) s s1) as [H1 K1].
    { unfold s1. destruct st as [d|]; [|split; [done|apply keeps_refl]]. destruct (t_Watch T s A i _) as [s2 r2] eqn:E.
      destruct (watch_call_inv T _ _ _ _ _ _ _ Hi Hw E) as (H2&H3&H4&H5).
      assert (ts_open s2 = ts_open s ∧ ts_stray s2 = ts_stray s) as [H6 H7].
      { unfold t_Watch in E. rewrite Hw in E. destruct (a_watch A (tw_p w)); [destruct (live T s w)|..]; by apply pair_equal_spec in E as [<- _]. }
      assert (keeps (registers A) s s2) as K2 by (by apply keeps_same).
      assert (tinv T (t_Del T s2 i)) by (eapply del_inv; [done|by rewrite H3|by rewrite H4]).
      assert (keeps (registers A) s (t_Del T s2 i)) by (eapply keeps_trans; [exact K2|]; eapply keeps_del; [done|by rewrite H3|by rewrite H4]).
      by destruct r2. }
    clearbody s1. destruct ((_ =? 0) && _); [by apply pair_equal_spec in H as [<- _]|].
    destruct (tw_dir w); [|by apply pair_equal_spec in H as [<- _]].
    destruct (trg_dir T s1 A ord i w _ ge) as [s2 evn2] eqn:E. apply pair_equal_spec in H as [<- _].
    unfold trg_dir in E. rewrite Hg in E. cbn [negb] in E. destruct (nonzero (ge .& t_write T)); [|by apply pair_equal_spec in E as [<- _]].
    destruct (a_ls A (tw_p w)); [|by apply pair_equal_spec in E as [<- _]]. eapply keeps_trans; [exact K1|by eapply keeps_rescan].
  - apply N.eqb_neq in Hg as Hg'.
    destruct ((decode (t_nat2not T) ge (tw_e w) =? 0) && (negb (tw_dir w) || (ge .& t_write T =? 0))) eqn:Hn.
    { apply pair_equal_spec in H as [<- _]. apply Done; [apply keeps_refl|]. intros (w'&Hd). pose proof (Huniq w' Hd) as ->. destruct Hd as (_&Hdir&_&Hnot).
      apply andb_true_iff in Hn as [Hn1 Hn2]. apply N.eqb_eq in Hn1. rewrite Hdir in Hn2. cbn in Hn2. apply N.eqb_eq in Hn2. by destruct Hnot as [?|[_ ?]]. }
    destruct (tw_dir w) eqn:Hdir.
    + destruct (trg_dir T s A ord i w _ ge) as [s2 evn2] eqn:E. apply pair_equal_spec in H as [<- _].
      unfold trg_dir in E. rewrite Hg in E. cbn [negb] in E.
      destruct (if nonzero (ge .& t_rename T) then _ else _) as [s3 evn3] eqn:E3. apply pair_equal_spec in E as [<- _].
      assert (tinv T s3 ∧ same_at T s s3 (tw_p w) ∧ keeps (registers A) s s3) as (H3&H4&K3).
      { destruct (nonzero (ge .& t_rename T)); [destruct (moved_inv T _ _ _ _ _ _ _ _ Hi E3); split_and!; [done|done|by eapply keeps_moved]|].
        apply pair_equal_spec in E3 as [<- _]. split_and!; [done|apply same_refl|apply keeps_refl]. }
      pose proof (sa_path _ _ _ _ H4) as Hp3. rewrite Hp in Hp3.
      pose proof (sa_tw _ _ _ _ H4) as Hw3. unfold tw_at in Hw3. rewrite Hp, Hp3 in Hw3. cbn in Hw3. rewrite Hw in Hw3.
      destruct (del_gone T s3 i w Hw3) as (G1&G2&G3). destruct (keeps_del (registers A) s3 _ i w H3 Hp3 Hw3) as [D1 D2].
      assert (tinv T (t_Del T s3 i)) as H5 by (by eapply del_inv).
      assert (ts_heap (t_Del T s3 i) !! i = Some w) as Hw5 by (by rewrite G3).
      split.
      * right. exists w. split.
        { split_and!; [split; [by eapply tw_at_eq|done]|done|done|]. apply andb_false_iff in Hn as [Hn|Hn]; [left; by apply N.eqb_neq|right; split; [done|by apply N.eqb_neq]]. }
        unfold t_Del at 1. rewrite Hw5, HT. cbn [ts_stray]. rewrite bool_decide_eq_false_2.
        -- by rewrite D1, (kp_stray _ _ _ K3).
        -- unfold t_Del. rewrite Hw3, HT. cbn. set_solver.
      * intros Hr Hl. pose proof (D2 Hr (kp_leak _ _ _ K3 Hr Hl)) as K. unfold t_Del at 1. rewrite Hw5, HT. intros fd. cbn.
        rewrite elem_of_difference, elem_of_singleton. intros [K1 K2]. rewrite lookup_delete_ne by done. by apply K.
    + apply pair_equal_spec in H as [<- _]. apply Done; [by eapply keeps_del|]. intros (w'&Hd). pose proof (Huniq w' Hd) as ->. destruct Hd as (_&Hd&_). congruence.
Qed.
Lemma step_fds s l s' : tinv T s → label_ok l → tstep T s l s' →
  (match l with
   | TEvent _ _ _ k ge _ => ts_stray s' = ts_stray s ∧ ¬ (∃ w, dir_gone T s k ge w) ∨ ∃ w, dir_gone T s k ge w ∧ ts_stray s' = tw_fd w :: ts_stray s
   | _ => ts_stray s' = ts_stray s
   end) ∧ (registers_l l → no_leak s → no_leak s').
Proof.
  intros Hi Hl H. destruct H as [st A p e s' r H|st A p s' r H|st A A' p e s' r H|st A ord k ge s' evn Ho H]; cbn in Hl |- *.
  - unfold trg_Watch in H. destruct st; [|by apply pair_equal_spec in H as [<- _]]. destruct (keeps_watch _ _ _ _ _ _ _ Hl Hi H). done.
  - unfold trg_Unwatch in H. destruct st; [|by apply pair_equal_spec in H as [<- _]]. destruct (keeps_unwatch _ _ _ _ _ _ Hi H). done.
  - unfold trg_Rewatch in H. destruct st; [|by apply pair_equal_spec in H as [<- _]]. destruct Hl as [_ Hl].
    destruct (trg_unwatch T s A p b) as [s1 r1] eqn:E. assert (tinv T s1) as H1 by (by eapply trg_unwatch_inv).
    destruct (keeps_unwatch _ _ _ _ _ _ Hi E) as [K1 K2].
    assert (ts_stray s1 = ts_stray s ∧ (registers A ∧ registers A' → no_leak s → no_leak s1)) as K by (split; [done|]; intros [? _]; by apply K2).
    destruct r1; [|apply pair_equal_spec in H as [<- _]; done..]. apply pair_equal_spec in H as [<- _].
    destruct (trg_watch T s1 A' p e b) as [s2 r2] eqn:E2. destruct (keeps_watch _ _ _ _ _ _ _ Hl H1 E2) as [K3 K4]. cbn. split; [congruence|].
    intros [? ?] ?. apply K4; [done|]. by apply K2.
  - by eapply keeps_process.
Qed.
End fds.
