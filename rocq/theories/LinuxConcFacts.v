(** * LinuxConcFacts: facts about the runs of tree and inotify watcher together *)
From Verif Require Import Base Event Watchpoint WatchpointFacts Paths PathsFacts Loop LoopFacts
  Node NodeFacts SpecTree WalkFacts RootFacts NonRec NonRecWp SpecNonRec SpecNonRecOS SpecOS NonRecFacts NonRecOps NonRecReg
  NonRecStep NonRecDisp NonRecStop NonRecOS NonRecCov NonRecBetween NonRecRun Prop_NonRec LawsFacts
  Clean SpecClean CleanFacts Inotify SpecInotify InotifyFacts InotifyTab Prop_Inotify Prop_Linux
  InotifyPipe SpecInotifyPipe InotifyPipeFacts Prop_InotifyPipe
  TreeConc SpecTreeConc TreeConcFacts SpecTreeDeliver TreeDeliverFacts Prop_TreeConc Prop_TreeDeliver LinuxConc SpecLinuxConc.
Local Open Scope N_scope.

(** ** Lists *)
Lemma trees_app a b : trees (a ++ b) = trees a ++ trees b.
Proof. unfold trees. by rewrite omap_app. Qed.
Lemma pipes_app a b : pipes (a ++ b) = pipes a ++ pipes b.
Proof. unfold pipes. by rewrite omap_app. Qed.
Lemma omap_split {A B} (f : A → option B) l a x b : omap f l = a ++ x :: b →
  ∃ l1 y l2, l = l1 ++ y :: l2 ∧ omap f l1 = a ∧ f y = Some x ∧ omap f l2 = b.
Proof.
  revert a. induction l as [|z l IH]; intros a; cbn; [by destruct a|]. destruct (f z) as [w|] eqn:Ez.
  - destruct a as [|w' a]; cbn; intros [= -> Hr].
    + exists [], z, l. by split_and!.
    + destruct (IH _ Hr) as (l1&y&l2&->&<-&Hy&<-). exists (z :: l1), y, l2. split_and!; [done|cbn; by rewrite Ez|done|done].
  - intros Hr. destruct (IH _ Hr) as (l1&y&l2&->&<-&Hy&<-). exists (z :: l1), y, l2. split_and!; [done|cbn; by rewrite Ez|done|done].
Qed.
Lemma trees_cons_tree l ls : trees (STree l :: ls) = l :: trees ls.
Proof. done. Qed.
Lemma pipes_cons_pipe l ls : pipes (SPipe l :: ls) = l :: pipes ls.
Proof. done. Qed.
Lemma clean_app a b : clean_names (a ++ b) → clean_names a.
Proof. intros [H1 H2]. split; [intros E p e rs Hin; apply (H1 E p e rs)|intros f ev isdir ck nm r rs Hin; apply (H2 f ev isdir ck nm r rs)]; apply elem_of_app; by left. Qed.
Lemma steady_app a b : steady (a ++ b) → steady a.
Proof. unfold steady. rewrite pipes_app, calls_app. apply orderly_app. Qed.
Lemma elem_pipes l ls : SPipe l ∈ ls → l ∈ pipes ls.
Proof. intros H. unfold pipes. apply elem_of_list_omap. by exists (SPipe l). Qed.
Lemma pipes_elem l ls : l ∈ pipes ls → SPipe l ∈ ls ∨ ∃ k e, l = PSent k e ∧ SSend k e ∈ ls.
Proof.
  unfold pipes. rewrite elem_of_list_omap. intros ([]&Hin&Heq); cbn in Heq; try done; injection Heq as <-; [by left|right; eauto].
Qed.

(** ** The two projections *)
Lemma srun_prun ls c s : srun ls c s → prun (pipes ls) s.
Proof.
  induction 1; rewrite ?pipes_app; cbn; rewrite ?app_nil_r; try done; [constructor|..]; by eapply prun_step.
Qed.
Lemma srun_app a b c s : srun (a ++ b) c s → ∃ c0 s0, srun a c0 s0.
Proof.
  revert c s. induction b as [|x b IH] using rev_ind; intros c s Hr; [rewrite app_nil_r in Hr; eauto|].
  rewrite app_assoc in Hr. remember ((a ++ b) ++ [x]) as ls eqn:Els.
  destruct Hr; [by destruct (a ++ b)|..]; apply app_inj_tail in Els as [-> _]; eauto.
Qed.
Lemma srun_psent ls c s k e : srun ls c s → SPipe (PSent k e) ∉ ls.
Proof.
  induction 1; [apply not_elem_of_nil|..]; intros [?|Heq]%snoc_elem; try done. injection Heq as <-. by eapply H1.
Qed.

(** Names of records. *)
Lemma ignored_name k k' r : r ∈ ignored_of k k' → r_name r = [].
Proof. unfold ignored_of. by intros (x&->&_)%elem_of_list_fmap. Qed.
Lemma queued_name ls s : prun ls s →
  (∀ f ev isdir ck nm r rs, PReport f ev isdir ck nm r rs ∈ ls → nm = [] ∨ proper nm) →
  ∀ r, r ∈ queued ls → r_name r = [] ∨ proper (r_name r).
Proof.
  induction 1 as [|ls s l s' Hr IH Hs]; intros Hn r; [by intros ?%elem_of_nil|]. rewrite queued_snoc.
  intros [Hin|Hin]%elem_of_app; [apply IH; [|done]; intros; eapply Hn; apply snoc_elem; by left|].
  unfold queued in Hin. cbn in Hin. rewrite ?app_nil_r in Hin.
  destruct Hs as [s E o i u HE Hc Hb|s E o u Hc|s E o i HE Hc Ho1 Ho2 Hst|s f ev isdir cookie name r' rs Hk Hrs|s rs Hro Hrs|s f i|s es q Hl Ho Hq|s k es j Hl Hj|s k es j Hj|s k e l j Hj|s k j Hj];
    cbn in Hin; rewrite ?app_nil_r in Hin; try (by apply elem_of_nil in Hin).
  - left. by eapply ignored_name.
  - assert (r = r') as -> by (destruct Hrs as [->|[-> _]]; [by apply elem_of_list_singleton in Hin|by apply elem_of_nil in Hin]).
    destruct Hk as (wd&m&_&_&Hreq). assert (r_name r' = name) as -> by (by rewrite Hreq).
    eapply Hn. apply snoc_elem. by right.
  - destruct Hrs as [->| ->]; [by apply elem_of_nil in Hin|]. apply elem_of_list_singleton in Hin as ->. by left.
  - left. by eapply ignored_name.
Qed.
(** What is in the watcher's table was asked for. *)
Lemma calls_watch ls E p e r : (E, IWatch p e, r) ∈ calls ls → r = true → ∃ rs, PBegin E (IWatch p e) rs ∈ ls.
Proof.
  intros Hin ->. unfold calls in Hin. apply elem_of_list_omap in Hin as (l&Hl&Heq). destruct l; try done. injection Heq as <- <-. eauto.
Qed.
Lemma itab_asked ls s p m : prun ls s → orderly (calls ls) → itab (calls ls) !! p = Some m →
  known m ∧ ∃ E rs, PBegin E (IWatch p m) rs ∈ ls.
Proof.
  intros Hr Hor Ht. pose proof (virt_exec _ _ Hr) as Hx. pose proof (iexec_inv _ _ Hx) as Hiv. pose proof (iexec_orderly _ _ Hx Hor) as Hov.
  apply (ov_tab _ _ Hov) in Ht as [wd Hm]. destruct (iv_m _ _ Hiv _ _ _ Hm) as (Hk&E&t1&t2&Heq). split; [done|].
  destruct (calls_watch ls E p m true) as [rs ?]; [rewrite Heq; apply elem_of_app; right; by left|done|eauto].
Qed.
Lemma sent_report ls s k e : prun (pipes ls) s → clean_names ls → steady ls → PSent k e ∈ pipes ls → nreport_ok linux slash (ie_info e).
Proof.
  intros Hr [Hc1 Hc2] Hst Hin. destruct (C90_sound _ _ _ _ Hr Hst Hin) as (es&t0&t3&t2&r&q&m&Hb&Hls&_&Hres&Ht&Hincl&H0&Hp).
  assert (r_name r = [] ∨ proper (r_name r)) as Hname.
  { eapply queued_name; [exact Hr| |].
    - intros f ev isdir ck nm r' rs Hrep. apply pipes_elem in Hrep as [Hrep|(?&?&?&_)]; [|done]. by eapply Hc2.
    - rewrite <-(C90_read _ _ Hr). apply elem_of_app. left. apply elem_of_list_In, in_concat. exists es.
      split; apply elem_of_list_In; [by eapply elem_of_list_lookup_2|done]. }
  rewrite Hls in Hr. pose proof Hr as Hr'. apply prun_app in Hr' as [s0 Hr0].
  assert (orderly (calls t0)) as Hor0. { unfold steady in Hst. rewrite Hls, calls_app in Hst. by apply orderly_app in Hst. }
  destruct (itab_asked _ _ _ _ Hr0 Hor0 Ht) as (Hk&E&rs&Hbeg).
  assert (PBegin E (IWatch q m) rs ∈ pipes ls) as Hbeg' by (rewrite Hls; apply elem_of_app; by left).
  apply pipes_elem in Hbeg' as [Hbeg'|(?&?&?&_)]; [|done]. apply Hc1 in Hbeg' as (d&Hd0&Hd&->).
  unfold nreport_ok, ie_info. cbn [ei_event ei_path]. split_and!; [done|apply known_omit; intros j Hj; by apply Hk, Hincl|].
  unfold named in Hp. destruct Hname as [Hn|Hn].
  - rewrite Hn in Hp. exists d. split; [by apply proper_upath|done].
  - destruct (joined d _ Hd0 Hd Hn) as [Hnn Hj]. exists (d ++ [r_name r]). split.
    + apply proper_upath; [by destruct d|]. apply Forall_app. split; [done|by repeat constructor; apply Hn].
    + rewrite Hp. by destruct (r_name r).
Qed.
Lemma step_outer (ev1 ev2 : event_info → Prop) c l c' :
  step (nonrec_ops slash) (nenv linux slash) (ncall_ok linux slash) ev1 c l c' →
  (∀ ei, l = LReport ei → ev2 ei) →
  step (nonrec_ops slash) (nenv linux slash) (ncall_ok linux slash) ev2 c l c'.
Proof.
  intros Hs He. destruct Hs; [apply s_call|apply s_report|apply s_take|eapply s_want|eapply s_lock|eapply s_crit|eapply s_unlock|eapply s_ret
    |eapply s_rlock|eapply s_offer|eapply s_offer_rec|eapply s_offer_nil|eapply s_runlock|eapply s_fwd|eapply s_recv|eapply s_iwant
    |eapply s_ilock|eapply s_icrit|eapply s_iunlock|eapply s_idone]; eauto.
Qed.
Lemma srun_nrun ls c s : srun ls c s → clean_names ls → steady ls → nrun linux slash (trees ls) c.
Proof.
  induction 1 as [|ls c s l c' Hr IH Hs Ho|ls c s i o E t r Hr IH Hi HE Hg Hst Hp Hc Hd|ls c s ei E t Hr IH Hi HE Hg Hst Hp Hc Hd
    |ls c s l s' Hr IH Hs Hn Hw|ls c s k e c' s' Hr IH Hs Hps]; intros Hcl Hsy; [constructor|..];
    specialize (IH (clean_app _ _ Hcl) (steady_app _ _ Hsy)); rewrite trees_app; cbn.
  - eapply run_step; [exact IH|]. eapply step_outer; [exact Hs|]. by intros ei ->.
  - eapply run_step; [exact IH|]. by econstructor.
  - eapply run_step; [exact IH|]. by econstructor.
  - by rewrite app_nil_r.
  - eapply run_step; [exact IH|]. eapply step_outer; [exact Hs|]. intros ei [= <-].
    eapply (sent_report (ls ++ [SSend k e]) s' k); [|done|done|].
    + rewrite pipes_app. cbn. eapply prun_step; [by eapply srun_prun|done].
    + rewrite pipes_app. apply snoc_elem. by right.
Qed.

(** ** Steps of the tree's state *)
Definition moved (l : slab) (t t' : st) : Prop :=
  ∃ E o r, nenv linux slash E ∧ os_good E o ∧ nop_ok linux slash o ∧ nstep slash E t o = (t', r) ∧
    ((∃ i, l = STree (LCrit i o r)) ∨ ∃ ei q, l = STree (LInt ei) ∧ o = NEvent (ei_event ei) q ∧ ei_path ei = render slash q).
Lemma outer_st c l c' : tstep c l c' → outer l → c_st c' = c_st c.
Proof. intros Hs Ho. destruct Hs; try done; [by destruct (decide _)|by destruct fwd]. Qed.
Lemma srun_snoc ls l c s : srun (ls ++ [l]) c s → clean_names ls → steady ls →
  ∃ c0 s0, srun ls c0 s0 ∧ (c_st c = c_st c0 ∨ moved l (c_st c0) (c_st c)).
Proof.
  intros Hr Hcl Hsy. remember (ls ++ [l]) as ls' eqn:Els.
  destruct Hr as [|ls0 c s l0 c' Hr Hs Ho|ls0 c s i o E t r Hr Hi HE Hg Hst Hp Hc Hd|ls0 c s ei E t Hr Hi HE Hg Hst Hp Hc Hd
    |ls0 c s l0 s' Hr Hs Hn Hw|ls0 c s k e c' s' Hr Hs Hps]; [by destruct ls|..];
    apply app_inj_tail in Els as [-> <-]; exists c, s; split; try done.
  - left. by eapply outer_st.
  - right. exists E, o, r. split_and!; try done; [|left; eauto].
    destruct (ki_thr _ _ _ (run_kinv _ _ _ _ _ _ (srun_nrun _ _ _ Hr Hcl Hsy)) _ _ _ Hi) as [[_ ?] _]. done.
  - right. pose proof (di_int _ _ _ _ (run_dinv _ _ _ _ _ _ (srun_nrun _ _ _ Hr Hcl Hsy))) as He. rewrite Hi in He.
    destruct He as (_&_&q&Hq&Heq). exists E, (NEvent (ei_event ei) q), ROk. split_and!; try done; [|right; eauto].
    cbn [nstep c_st set_st]. f_equal. rewrite <-Hst. destruct ei as [ev q' isd ft]. cbn in Heq. by subst q'.
  - by left.
  - left. by inversion Hs.
Qed.
Lemma srun_good ls c s : srun ls c s → clean_names ls → steady ls → tinv linux slash (st_tree (c_st c)) ∧ osi linux slash (c_st c).
Proof.
  revert c s. induction ls as [|l ls IH] using rev_ind; intros c s Hr Hcl Hsy.
  - remember [] as ls eqn:Els. destruct Hr; try (by destruct ls). apply (nexec_osi linux linux_ok slash [] init_st). constructor.
  - apply srun_snoc in Hr as (c0&s0&Hr&Hm); [|by eapply clean_app|by eapply steady_app].
    destruct (IH _ _ Hr (clean_app _ _ Hcl) (steady_app _ _ Hsy)) as [Ht Ho].
    destruct Hm as [->|(E&o&r&HE&Hg&Hok&Hs&_)]; [done|].
    split; [by eapply (nstep_spec linux linux_ok slash E _ o)|by eapply (nstep_osi linux linux_ok slash E _ o)].
Qed.

(** ** The calls of the watcher *)
Lemma srun_run ls c s : srun ls c s → run (nonrec_ops slash) (nenv linux slash) (ncall_ok linux slash) (λ _, True) (trees ls) c.
Proof.
  induction 1; rewrite ?trees_app; cbn; rewrite ?app_nil_r; try done; [constructor|..]; (eapply run_step; [eassumption|]); try done.
  - by econstructor.
  - by econstructor.
Qed.
Lemma outer_writing ls c s l c' : srun ls c s → tstep c l c' → outer l ∨ (∃ ei, l = LReport ei) → writing c → writing c'.
Proof.
  intros Hr Hs Ho Hw. pose proof (li_fresh _ (run_linv _ _ _ _ _ _ (srun_run _ _ _ Hr)) (c_next c) ltac:(lia)) as Hf.
  assert (∀ j t t', c_thr c !! j = Some t' → (∀ o, t' ≠ TCall o WHold) →
    (∃ i o, c_thr c !! i = Some (TCall o WHold)) → ∃ i o, <[j := t]> (c_thr c) !! i = Some (TCall o WHold)) as Hins.
  { intros j t t' Hj Hne (i&o&Hi). exists i, o. rewrite lookup_insert_ne; [done|]. intros ->. rewrite Hi in Hj. injection Hj as <-. by eapply Hne. }
  assert (∀ j t', c_thr c !! j = Some t' → (∀ o, t' ≠ TCall o WHold) →
    (∃ i o, c_thr c !! i = Some (TCall o WHold)) → ∃ i o, delete j (c_thr c) !! i = Some (TCall o WHold)) as Hdel.
  { intros j t' Hj Hne (i&o&Hi). exists i, o. rewrite lookup_delete_ne; [done|]. intros ->. rewrite Hi in Hj. injection Hj as <-. by eapply Hne. }
  assert (∀ t, (∃ i o, c_thr c !! i = Some (TCall o WHold)) → ∃ i o, <[c_next c := t]> (c_thr c) !! i = Some (TCall o WHold)) as Hnew.
  { intros t (i&o&Hi). exists i, o. rewrite lookup_insert_ne; [done|]. intros <-. congruence. }
  destruct Hw as [Hw|[ei Hw]].
  - left. inversion Hs; subst; cbn [c_thr set_thr end_thr new_thr set_int set_lock set_st set_q set_rec]; try done;
      try (by eauto); try (by eapply Hins); try (by eapply Hdel); try (by apply Hnew).
    + destruct Ho as [[]|[? ?]]; done.
    + destruct (decide _); by eapply Hins.
    + destruct fwd; [by eapply Hins|by eapply Hdel].
  - right. inversion Hs; subst; cbn [c_int set_thr end_thr new_thr set_int set_lock set_st set_q set_rec]; try (by eauto); try congruence.
    + destruct (decide _); eauto.
    + destruct fwd; eauto.
    + destruct Ho as [[]|[? ?]]; done.
Qed.
Lemma srun_between ls c s : srun ls c s → ¬ writing c → p_call s = None ∧ drives (st_log (c_st c)) (calls (pipes ls)).
Proof.
  induction 1 as [|ls c s l c' Hr IH Hs Ho|ls c s i o E t r Hr IH Hi HE Hg Hst Hp Hc Hd|ls c s ei E t Hr IH Hi HE Hg Hst Hp Hc Hd
    |ls c s l s' Hr IH Hs Hn Hw|ls c s k e c' s' Hr IH Hs Hps]; intros Hnw; rewrite ?pipes_app, ?calls_app; cbn; rewrite ?app_nil_r.
  - split; [done|constructor].
  - rewrite (outer_st _ _ _ Hs Ho). apply IH. intros Hw. apply Hnw. eapply outer_writing; eauto.
  - done.
  - done.
  - destruct (IH Hnw) as [Hc Hd].
    destruct Hs as [s E o i u HE Hc' Hb|s E o u Hc'|s E o i HE Hc' Ho1 Ho2 Hst|s f ev isdir cookie name r' rs Hk Hrs|s rs Hro Hrs|s f i|s es q Hl Ho Hq|s k es j Hl Hj|s k es j Hj|s k e l j Hj|s k j Hj];
      cbn; rewrite ?app_nil_r; try done.
    + destruct Hnw. by apply Hw.
    + destruct Hnw. by apply Hw.
    + split; [done|]. by constructor.
  - destruct IH as [Hc Hd]; [intros Hw; apply Hnw; eapply outer_writing; eauto|]. split; [by inversion Hps|].
    assert (c_st c' = c_st c) as -> by (by inversion Hs). done.
Qed.
(** Prefixes of the log and of the watcher's history. *)
Lemma drives_snoc lg itr x : drives lg (itr ++ [x]) → ∃ lg', lg' `prefix_of` lg ∧ drives lg' itr.
Proof.
  intros H. inversion H as [Hn|? ? ? ? ? Hd Hl Hn|? ? ? ? ? ? Hd Hl Hn|? ? ? ? ? ? ? Hd Hl Hn|? ? ? ? ? Hd Hl Hn]; [by destruct itr|..];
    apply app_inj_tail in Hn as [<- _]; eexists; (split; [|exact Hd]); first [done|by eexists].
Qed.
Lemma drives_app lg t1 t2 : drives lg (t1 ++ t2) → ∃ lg', lg' `prefix_of` lg ∧ drives lg' t1.
Proof.
  revert lg. induction t2 as [|x t2 IH] using rev_ind; intros lg Hd; [rewrite app_nil_r in Hd; eauto|].
  rewrite app_assoc in Hd. apply drives_snoc in Hd as (l'&Hp&Hd). apply IH in Hd as (l2&Hp2&Hd). exists l2. split; [by etrans|done].
Qed.
Definition weight (itr : itrace) : nat := length (omap (λ x : ienv * iop * bool, match x.1.2 with IGone _ => None | _ => Some x end) itr).
Lemma weight_app a b : weight (a ++ b) = (weight a + weight b)%nat.
Proof. unfold weight. by rewrite omap_app, app_length. Qed.
Lemma drives_length lg itr : drives lg itr → length lg = weight itr.
Proof. induction 1; rewrite ?weight_app, ?app_length, ?IHdrives; cbn; lia. Qed.
Lemma drives_between l0 l1 t0 t1 t2 : drives l0 t0 → drives l1 (t0 ++ t1 ++ t2) → l0 `prefix_of` l1 →
  ∃ l, l0 `prefix_of` l ∧ l `prefix_of` l1 ∧ drives l (t0 ++ t1).
Proof.
  intros H0 H1 Hp. rewrite app_assoc in H1. destruct (drives_app _ _ _ H1) as (l&Hl&Hd). exists l. split_and!; try done.
  apply drives_length in H0, Hd. rewrite weight_app in Hd. destruct (prefix_weak_total _ _ _ Hp Hl) as [|[x Hx]]; [done|].
  rewrite Hx, app_length in H0. destruct x; [rewrite app_nil_r in Hx; by rewrite Hx|cbn in H0; lia].
Qed.

(** ** A watch that is set *)
(** The effect of a Watch that returned, and what comes after it. *)
Lemma watch_effect l1 i p isrec n e r l2 rest c s :
  let w := NWatch p isrec n e in
  let ls := l1 ++ STree (LCall i w) :: l2 ++ STree (LRet i w r) :: rest in
  srun ls c s → clean_names ls → steady ls → no_stop_since (trees l1) (trees ls) n →
  ∃ x y, l2 = x ++ STree (LCrit i w r) :: y ∧ ∀ k r', LCrit k (NStop n) r' ∉ trees (y ++ STree (LRet i w r) :: rest).
Proof.
  intros w ls Hs Hcl Hsy Hno. pose proof (srun_nrun _ _ _ Hs Hcl Hsy) as Hr.
  assert (trees ls = trees l1 ++ LCall i w :: trees l2 ++ LRet i w r :: trees rest) as Htr.
  { unfold ls. by rewrite !trees_app, !trees_cons_tree, trees_app, trees_cons_tree. }
  assert (LCrit i w r ∈ trees l1 ++ LCall i w :: trees l2) as Hc.
  { eapply (ret_crit _ _ _ _ _ _ _ _ (trees rest) c). rewrite <-app_assoc. rewrite Htr in Hr. exact Hr. }
  apply elem_of_app in Hc as [Hc|[?|Hc]%elem_of_cons]; [|done|].
  { exfalso. rewrite Htr in Hr. eapply (call_fresh _ _ _ _ (trees l1) i w); [exact Hr|exact Hc|done]. }
  apply elem_of_list_split in Hc as (tx&ty&Htxy). apply omap_split in Htxy as (x&z&y&->&<-&Hz&<-).
  destruct z as [l|l|k ev]; cbn in Hz; try done. injection Hz as ->. exists x, y. split; [done|].
  intros k r' Hin. apply elem_of_list_split in Hin as (u&v&Hu).
  fold (trees x) in *.
  assert (trees ls = ((trees l1 ++ LCall i w :: trees x) ++ LCrit i w r :: u) ++ LCrit k (NStop n) r' :: v) as Heq.
  { rewrite Htr, trees_app, trees_cons_tree. rewrite trees_app, trees_cons_tree in Hu.
    rewrite <-!app_assoc. cbn. rewrite Hu. done. }
  rewrite Heq in Hr. destruct (crit_call _ _ _ _ _ _ _ _ _ _ Hr) as (K1&_&K3).
  assert (LCall k (NStop n) ∈ trees ls) as Hk by (rewrite Heq; apply elem_of_app; by left).
  apply Hno in Hk as (o'&r2&Hk). apply (K3 o' r2). rewrite !elem_of_app. by left; left.
Qed.
(** The registration after it. *)
Lemma effect_registered a i p isrec n e b c s g :
  let w := NWatch p isrec n e in
  srun (a ++ STree (LCrit i w ROk) :: b) c s → clean_names (a ++ STree (LCrit i w ROk) :: b) → steady (a ++ STree (LCrit i w ROk) :: b) →
  (∀ k r', LCrit k (NStop n) r' ∉ trees b) → not_removed linux slash (trees b) p → incl_ev g e → g ≠ 0 →
  ∃ y, wp_at (st_tree (c_st c)) p !! KUser n = Some y ∧ incl_ev g y.
Proof.
  intros w Hs Hcl Hsy Hno Hrm Hge Hg0. pose proof (srun_nrun _ _ _ Hs Hcl Hsy) as Hr.
  destruct (nrun_history linux linux_ok eq_refl slash _ _ Hr) as (tr&Hh&Hx). apply nexec_regs in Hx; [|apply linux_ok].
  pose proof Hr as Hr'. rewrite trees_app, trees_cons_tree in Hh, Hr'. destruct (history_split _ _ _ _ _ _ _ Hh) as (t1&t2&->&Hf).
  assert (incl_ev (e .| rec_bit linux isrec) (ureg (c_st c) p n)) as Hi.
  { eapply nregs_kept; [exact Hx| |].
    - intros r Hin. eapply Forall_forall in Hf; [|exact Hin]. destruct Hf as [(k&Hk)|(ei'&t&_&(q&_&->)&Hx')]; [by eapply Hno|].
      by apply elem_of_list_singleton in Hx'.
    - intros q r Hin. eapply Forall_forall in Hf; [|exact Hin]. destruct Hf as [(k&Hk)|(ei'&t&Hi&(q'&Hq&->)&Hx')].
      + exfalso. destruct (crit_ok _ _ _ _ _ _ k (NEvent (Remove linux) q) r Hr') as [[] _]. apply elem_of_app. right. by right.
      + apply elem_of_list_singleton in Hx'. injection Hx' as Hev -> ->. by apply (Hrm ei' q'). }
  unfold ureg, wget in Hi. destruct (wp_at (st_tree (c_st c)) p !! KUser n) as [y|].
  - exists y. split; [done|]. intros j Hj. apply Hi, has_lor. left. by apply Hge.
  - exfalso. apply nonzero_bit in Hg0 as [j Hj]. apply (has_0 j), Hi, has_lor. left. by apply Hge.
Qed.
Lemma thru_trans nm x l0 l1 l2 : l0 `prefix_of` l1 → l1 `prefix_of` l2 → thru nm x l0 l1 → thru nm x l1 l2 → thru nm x l0 l2.
Proof.
  intros Hp1 Hp2 H1 H2 l Ha Hb. destruct (prefix_weak_total _ _ _ Hp2 Hb) as [Hc|Hc]; [by apply H2|by apply H1].
Qed.
Lemma srun_mark a x c s : srun (a ++ [x]) c s → (∃ i o r, x = STree (LCrit i o r)) ∨ (∃ ei, x = STree (LInt ei)) →
  p_call s = None ∧ drives (st_log (c_st c)) (calls (pipes (a ++ [x]))).
Proof.
  intros Hs Hx. remember (a ++ [x]) as ls eqn:Els. destruct Hs; [by destruct a|..]; apply app_inj_tail in Els as [-> Hx']; subst x;
    rewrite ?pipes_app; cbn; rewrite ?app_nil_r; try done.
  - destruct Hx as [(?&?&?&[= ->])|(?&[= ->])]; by match goal with H : outer _ |- _ => destruct H end.
  - destruct Hx as [(?&?&?&?)|(?&?)]; done.
  - destruct Hx as [(?&?&?&?)|(?&?)]; done.
Qed.
(** The watch stays all the time. *)
Lemma effect_thru a i p isrec n e b c s g :
  let w := NWatch p isrec n e in let x := STree (LCrit i w ROk) in
  srun (a ++ x :: b) c s → clean_names (a ++ x :: b) → steady (a ++ x :: b) →
  (∀ k r', LCrit k (NStop n) r' ∉ trees b) → not_removed linux slash (trees b) p → incl_ev g e → g ≠ 0 → disj_ev g (internal linux) →
  comps_ok slash p →
  ∃ c1 s1, srun (a ++ [x]) c1 s1 ∧ p_call s1 = None ∧ drives (st_log (c_st c1)) (calls (pipes (a ++ [x]))) ∧
    st_log (c_st c1) `prefix_of` st_log (c_st c) ∧ thru (render slash p) g (st_log (c_st c1)) (st_log (c_st c)).
Proof.
  intros w x. revert c s. induction b as [|l b IH] using rev_ind; intros c s Hs Hcl Hsy Hno Hrm Hge Hg0 Hgi Hp.
  - exists c, s. split; [done|]. 
    destruct (srun_mark _ _ _ _ Hs) as [H1 H2]; [left; by eexists _, _, _|].
    split_and!; try done. intros k Ha Hb. assert (k = st_log (c_st c)) as -> by (by apply prefix_both).
    destruct (effect_registered _ _ _ _ _ _ _ _ _ g Hs Hcl Hsy Hno Hrm Hge Hg0) as (y&Hy&Hgy).
    destruct (srun_good _ _ _ Hs Hcl Hsy) as [_ Ho]. by eapply (reg_cov linux slash (c_st c) p n y).
  - assert (a ++ x :: b ++ [l] = (a ++ x :: b) ++ [l]) as Heq by (by rewrite <-app_assoc).
    destruct (effect_registered _ _ _ _ _ _ _ _ _ g Hs Hcl Hsy Hno Hrm Hge Hg0) as (y'&Hy'&Hgy').
    rewrite Heq in Hs, Hcl, Hsy. pose proof (clean_app _ _ Hcl) as Hcl0. pose proof (steady_app _ _ Hsy) as Hsy0.
    assert (∀ k r', LCrit k (NStop n) r' ∉ trees b) as Hno0.
    { intros k r' Hin. apply (Hno k r'). rewrite trees_app. apply elem_of_app. by left. }
    assert (not_removed linux slash (trees b) p) as Hrm0.
    { intros ei q Hin. apply (Hrm ei q). rewrite trees_app. apply elem_of_app. by left. }
    destruct (srun_snoc _ _ _ _ Hs Hcl0 Hsy0) as (c0&s0&Hs0&Hm).
    destruct (IH _ _ Hs0 Hcl0 Hsy0 Hno0 Hrm0 Hge Hg0 Hgi Hp) as (c1&s1&K1&K2&K3&K4&K5).
    assert (st_log (c_st c0) `prefix_of` st_log (c_st c) ∧ thru (render slash p) g (st_log (c_st c0)) (st_log (c_st c))) as [Hp1 Ht1].
    { destruct (effect_registered _ _ _ _ _ _ _ _ _ g Hs0 Hcl0 Hsy0 Hno0 Hrm0 Hge Hg0) as (y&Hy&Hgy).
      destruct (srun_good _ _ _ Hs0 Hcl0 Hsy0) as [Ht Ho].
      destruct Hm as [->|(E&o&r&HE&Hgd&Hok&Hst&Hl)].
      - split; [done|]. intros k Ha Hb. assert (k = st_log (c_st c0)) as -> by (by apply prefix_both).
        by eapply (reg_cov linux slash (c_st c0) p n y).
      - destruct (srun_good _ _ _ Hs Hcl Hsy) as [_ Ho'].
        eapply (nstep_thru linux linux_ok slash E (c_st c0) o (c_st c) r p g); try done; by eapply reg_cov. }
    exists c1, s1. split_and!; try done; [by etrans|]. by eapply thru_trans.
Qed.
(** According to the watcher's own history. *)
Section marked.
Context (a : list slab) (c1 : cfg) (s1 : pst) (nm : str) (g : N).
Hypothesis (K1 : srun a c1 s1) (K2 : p_call s1 = None) (K3 : drives (st_log (c_st c1)) (calls (pipes a))).
Lemma thru_itab b1 b2 c s :
  srun (a ++ b1 ++ b2) c s → ¬ writing c →
  st_log (c_st c1) `prefix_of` st_log (c_st c) → thru nm g (st_log (c_st c1)) (st_log (c_st c)) →
  ∃ m, itab (calls (pipes (a ++ b1))) !! nm = Some m ∧ incl_ev g m.
Proof.
  intros Hs Hnw K4 K5. destruct (srun_between _ _ _ Hs Hnw) as [_ Hd]. rewrite !pipes_app, !calls_app in Hd.
  destruct (drives_between _ _ _ _ _ K3 Hd K4) as (l&Ha&Hb&Hl).
  destruct (K5 l Ha Hb) as (m&r&Hm&Hgm). exists m. split; [|done].
  by rewrite pipes_app, calls_app, (drives_tab _ _ _ Hl), Hm.
Qed.
Lemma thru_keeps b c s :
  srun (a ++ b) c s → ¬ writing c → steady (a ++ b) →
  st_log (c_st c1) `prefix_of` st_log (c_st c) → thru nm g (st_log (c_st c1)) (st_log (c_st c)) →
  keeps (pipes b) nm g ∧ ∃ wd, ∀ s0, prun (pipes a) s0 → entry (i_m (p_i s0)) wd nm g ∧ entry (i_m (virt s0)) wd nm g.
Proof.
  intros Hs Hnw Hsy K4 K5. split.
  - intros E o rs Hin. apply elem_of_list_split in Hin as (u&v&Huv). apply omap_split in Huv as (b1&z&b2&->&Hu&Hz&Hv).
    destruct z as [l|l|k ev]; cbn in Hz; try done. injection Hz as ->.
    assert (a ++ b1 ++ SPipe (PBegin E o rs) :: b2 = a ++ (b1 ++ [SPipe (PBegin E o rs)]) ++ b2) as Heq by (by rewrite <-app_assoc).
    rewrite Heq in Hs. destruct (thru_itab _ _ _ _ Hs Hnw K4 K5) as (m&Hm&Hgm).
    rewrite app_assoc, pipes_app, calls_app in Hm.
    change (calls (pipes [SPipe (PBegin E o rs)])) with [(E, o, true)] in Hm. rewrite itab_snoc in Hm. split.
    + intros ->. cbn in Hm. by rewrite lookup_delete in Hm.
    + intros e' ->. cbn in Hm. rewrite lookup_insert in Hm. by injection Hm as ->.
  - destruct (thru_itab [] b c s Hs Hnw K4 K5) as (m&Hm&Hgm). rewrite app_nil_r in Hm.
    pose proof (srun_prun _ _ _ K1) as Hr1. apply steady_app in Hsy as Hor.
    pose proof (virt_exec _ _ Hr1) as Hx. pose proof (iexec_inv _ _ Hx) as Hiv. pose proof (iexec_orderly _ _ Hx Hor) as Hov.
    apply (ov_tab _ _ Hov) in Hm as [wd Hm]. destruct (iv_m _ _ Hiv _ _ _ Hm) as (Hk&_). exists wd.
    unfold virt in Hm. rewrite K2 in Hm. intros s0 Hr0. pose proof (run_core _ _ _ Hr1 Hr0) as Hcore. injection Hcore as Hi Hc.
    unfold virt. rewrite <-Hc, K2, <-Hi. split; exists m; by split_and!.
Qed.
End marked.
Lemma effect_keeps a i p isrec n e b c s g :
  let w := NWatch p isrec n e in let x := STree (LCrit i w ROk) in
  srun (a ++ x :: b) c s → ¬ writing c → clean_names (a ++ x :: b) → steady (a ++ x :: b) →
  (∀ k r', LCrit k (NStop n) r' ∉ trees b) → not_removed linux slash (trees b) p → incl_ev g e → g ≠ 0 → disj_ev g (internal linux) →
  comps_ok slash p →
  keeps (pipes b) (render slash p) g ∧
  ∃ wd, ∀ s0, prun (pipes (a ++ [x])) s0 → entry (i_m (p_i s0)) wd (render slash p) g ∧ entry (i_m (virt s0)) wd (render slash p) g.
Proof.
  intros w x Hs Hnw Hcl Hsy Hno Hrm Hge Hg0 Hgi Hp.
  destruct (effect_thru _ _ _ _ _ _ _ _ _ g Hs Hcl Hsy Hno Hrm Hge Hg0 Hgi Hp) as (c1&s1&K1&K2&K3&K4&K5).
  rewrite cons_middle, app_assoc in Hs, Hsy. by eapply thru_keeps.
Qed.

(** ** Directories below a recursive watch *)
Lemma frun_srun ls tr D c s : frun ls tr D c s → srun ls c s.
Proof. by destruct 1; [constructor|..]. Qed.
Lemma crit_nop ls c s i o r : srun ls c s → clean_names ls → steady ls → STree (LCrit i o r) ∈ ls → is_call o ∧ nop_ok linux slash o.
Proof.
  intros Hs Hcl Hsy Hin. eapply (crit_ok _ _ _ _ _ _ i o r (srun_nrun _ _ _ Hs Hcl Hsy)). apply elem_of_list_omap. by eexists.
Qed.
Lemma internal_nstep E t ei p : ei_path ei = render slash p → nstep slash E t (NEvent (ei_event ei) p) = (nr_internal E t ei, ROk).
Proof. intros Hp. cbn [nstep]. destruct ei as [ev q d ft]. cbn in Hp. by subst q. Qed.
Lemma frun_fexec ls tr D c s : frun ls tr D c s → clean_names ls → steady ls → fexec linux slash tr D (c_st c).
Proof.
  induction 1 as [D HD|ls tr D c s l c' s' Hf IH Hs Hst Hl1 Hl2|ls tr D c s i o r E c' s' Hf IH Hs HE Hg HF Hst
    |ls tr D D' p c s ei E c' s' Hf IH Hs Hev Hp HE Hrel HD HF H1 H2 H3 H4 H5 Hst
    |ls tr D D' p c s ei E c' s' Hf IH Hs Hev Hp Hgp HE Hrel H1 Hst]; intros Hcl Hsy; pose proof (clean_app _ _ Hcl) as Hcl0 || idtac; pose proof (steady_app _ _ Hsy) as Hsy0 || idtac.
  - by constructor.
  - rewrite Hst. by apply IH.
  - destruct (crit_nop _ _ _ i o r Hs Hcl Hsy) as [Hc Hok]; [apply elem_of_app; right; by left|].
    eapply fx_op; try done; [by apply IH|]. by intros ev p ->.
  - eapply fx_mkdir; try done; [by apply IH|]. rewrite <-Hev, <-Hst. by apply internal_nstep.
  - eapply fx_rmdir; try done; [by apply IH|]. rewrite <-Hev, <-Hst. by apply internal_nstep.
Qed.
(** One step back. *)
Lemma frun_snoc ls l tr D c s : frun (ls ++ [l]) tr D c s → clean_names (ls ++ [l]) → steady (ls ++ [l]) →
  ∃ tr0 D0 c0 s0, frun ls tr0 D0 c0 s0 ∧
    ((∀ q, q ∈ D → q ∉ D0 → ∃ ei p, l = STree (LInt ei) ∧ ei_event ei = Create linux ∧ ei_path ei = render slash p ∧ p `prefix_of` q)) ∧
    (tr = tr0 ∧ c_st c = c_st c0 ∧ (∀ i o r, l ≠ STree (LCrit i o r)) ∨
     ∃ E o r, tr = tr0 ++ [(o, r)] ∧ nenv linux slash E ∧ os_good E o ∧ nop_ok linux slash o ∧ nstep slash E (c_st c0) o = (c_st c, r) ∧
       ((∃ i, l = STree (LCrit i o r) ∧ is_call o) ∨ ∃ ei q, l = STree (LInt ei) ∧ o = NEvent (ei_event ei) q ∧ ei_path ei = render slash q)).
Proof.
  intros Hf Hcl Hsy. remember (ls ++ [l]) as ls' eqn:Els. pose proof Hf as Hf'.
  destruct Hf as [D HD|ls0 tr D c s l0 c' s' Hf Hs Hst Hl1 Hl2|ls0 tr D c s i o r E c' s' Hf Hs HE Hg HF Hst
    |ls0 tr D D' p c s ei E c' s' Hf Hs Hev Hp HE Hrel HD HF H1 H2 H3 H4 H5 Hst
    |ls0 tr D D' p c s ei E c' s' Hf Hs Hev Hp Hgp HE Hrel H1 Hst]; [by destruct ls|..].
  all: pose proof Els as Els'; apply app_inj_tail in Els as [-> <-]; exists tr, D, c, s; split; [done|split].
  - by intros.
  - by left.
  - by intros.
  - right. destruct (crit_nop _ _ _ i o r Hs Hcl Hsy) as [Hc Hok]; [apply elem_of_app; right; by left|].
    exists E, o, r. split_and!; try done. left. by exists i.
  - intros q Hq Hn. exists ei, p. split_and!; try done. by apply H3.
  - right. exists E, (NEvent (Create linux) p), ROk. split_and!; try done.
    + by apply HD.
    + rewrite <-Hev, <-Hst. by apply internal_nstep.
    + right. exists ei, p. by rewrite Hev.
  - intros q Hq Hn. by apply H1 in Hq as [? _].
  - right. exists E, (NEvent (Remove linux) p), ROk. split_and!; try done.
    + rewrite <-Hev, <-Hst. by apply internal_nstep.
    + right. exists ei, p. by rewrite Hev.
Qed.
Lemma frun_force a i p n e b tr D c s :
  let x := STree (LCrit i (NWatch p true n e) ROk) in
  frun (a ++ x :: b) tr D c s → clean_names (a ++ x :: b) → steady (a ++ x :: b) →
  (∀ k r', LCrit k (NStop n) r' ∉ trees b) → not_removed linux slash (trees b) p → in_force linux tr p n e.
Proof.
  intros x. revert tr D c s. induction b as [|l b IH] using rev_ind; intros tr D c s Hf Hcl Hsy Hno Hrm.
  - destruct (frun_snoc _ _ _ _ _ _ Hf Hcl Hsy) as (tr0&D0&c0&s0&_&_&[(_&_&Hx)|(E&o&r&->&_&_&_&_&Hx)]).
    + by destruct (Hx i (NWatch p true n e) ROk).
    + destruct Hx as [(j&Hx&_)|(ei&q&?&_)]; [|done]. injection Hx as _ <- <-. exists tr0, [].
      split_and!; [done|by intros ? ?%elem_of_nil|by intros ? ? ?%elem_of_nil].
  - assert (a ++ x :: b ++ [l] = (a ++ x :: b) ++ [l]) as Heq by (by rewrite <-app_assoc).
    rewrite Heq in Hf, Hcl, Hsy. pose proof (clean_app _ _ Hcl) as Hcl0. pose proof (steady_app _ _ Hsy) as Hsy0.
    assert (∀ k r', LCrit k (NStop n) r' ∉ trees b) as Hno0.
    { intros k r' Hin. apply (Hno k r'). rewrite trees_app. apply elem_of_app. by left. }
    assert (not_removed linux slash (trees b) p) as Hrm0.
    { intros ei q Hin. apply (Hrm ei q). rewrite trees_app. apply elem_of_app. by left. }
    destruct (frun_snoc _ _ _ _ _ _ Hf Hcl Hsy) as (tr0&D0&c0&s0&Hf0&_&Hc). clear Hf. rename Hf0 into Hf.
    destruct (IH _ _ _ _ Hf Hcl0 Hsy0 Hno0 Hrm0) as (t1&t2&Ht&H1&H2).
    destruct Hc as [(->&_)|(E&o&r&->&_&_&_&_&Hx)]; [by exists t1, t2|]. exists t1, (t2 ++ [(o, r)]).
    split_and!; [by rewrite Ht, <-app_assoc| |].
    + intros r' [Hin|[= <- <-]]%snoc_elem; [by eapply H1|]. destruct Hx as [(j&->&_)|(ei&q&_&?&_)]; [|done].
      apply (Hno j r'). rewrite trees_app. apply elem_of_app. right. by left.
    + intros q r' [Hin|Hin]%snoc_elem; [by eapply H2|]. injection Hin as <- <-. destruct Hx as [(j&_&[])|(ei&q'&->&Ho&Hq)].
      injection Ho as Hev ->. apply (Hrm ei q'); [|done|done]. rewrite trees_app. apply elem_of_app. right. by left.
Qed.
(** The watch on a directory [q] below [p], from a moment on when it is there. *)
Lemma below_thru a0 i p n e b0 a x b tr D c s q g :
  let w := STree (LCrit i (NWatch p true n e) ROk) in
  a ++ [x] = a0 ++ w :: b0 → (∃ i o r, x = STree (LCrit i o r)) ∨ (∃ ei, x = STree (LInt ei)) →
  frun ((a ++ [x]) ++ b) tr D c s → clean_names ((a ++ [x]) ++ b) → steady ((a ++ [x]) ++ b) →
  (∀ k r', LCrit k (NStop n) r' ∉ trees (b0 ++ b)) → not_removed linux slash (trees (b0 ++ b)) p →
  q ∈ D → p `prefix_of` q → not_created b q → incl_ev g e →
  ∃ c1 s1, srun (a ++ [x]) c1 s1 ∧ p_call s1 = None ∧ drives (st_log (c_st c1)) (calls (pipes (a ++ [x]))) ∧
    st_log (c_st c1) `prefix_of` st_log (c_st c) ∧ thru (render slash q) g (st_log (c_st c1)) (st_log (c_st c)).
Proof.
  intros w Heq Hx. revert tr D c s. induction b as [|l b IH] using rev_ind; intros tr D c s Hf Hcl Hsy Hno Hrm Hq Hpq Hnc Hge.
  - rewrite app_nil_r in *. pose proof (frun_srun _ _ _ _ _ Hf) as Hs. exists c, s. split; [done|].
    destruct (srun_mark _ _ _ _ Hs Hx) as [H1 H2]. split_and!; try done.
    intros k Ha Hb. assert (k = st_log (c_st c)) as -> by (by apply prefix_both).
    pose proof (frun_fexec _ _ _ _ _ Hf Hcl Hsy) as Hfx. rewrite Heq in Hf, Hcl, Hsy.
    destruct (fexec_covered linux linux_ok slash _ _ _ p n e q Hfx) as (m&Hm&Hi); [by eapply frun_force|done|done|].
    exists m, false. split; [done|]. clear - Hi Hge. bits.
  - rewrite app_assoc in Hf, Hcl, Hsy. pose proof (clean_app _ _ Hcl) as Hcl0. pose proof (steady_app _ _ Hsy) as Hsy0.
    assert (∀ k r', LCrit k (NStop n) r' ∉ trees (b0 ++ b)) as Hno0.
    { intros k r' Hin. apply (Hno k r'). rewrite app_assoc, trees_app. apply elem_of_app. by left. }
    assert (not_removed linux slash (trees (b0 ++ b)) p) as Hrm0.
    { intros ei q' Hin. apply (Hrm ei q'). rewrite app_assoc, trees_app. apply elem_of_app. by left. }
    assert (not_created b q) as Hnc0.
    { intros ei q' Hin. apply (Hnc ei q'). apply elem_of_app. by left. }
    pose proof (frun_fexec _ _ _ _ _ Hf Hcl Hsy) as Hfx.
    assert (((a ++ [x]) ++ b) ++ [l] = a0 ++ w :: b0 ++ b ++ [l]) as Heq1.
    { rewrite Heq. repeat (rewrite <-?app_assoc; cbn [app]). done. }
    assert ((a ++ [x]) ++ b = a0 ++ w :: b0 ++ b) as Heq0 by (rewrite Heq; by rewrite <-!app_assoc).
    assert (cov (render slash q) g (st_log (c_st c))) as Hcov.
    { destruct (fexec_covered linux linux_ok slash _ _ _ p n e q Hfx) as (m&Hm&Hi); [|done|done|].
      - rewrite Heq1 in Hf, Hcl, Hsy. by eapply frun_force.
      - exists m, false. split; [done|]. clear - Hi Hge. bits. }
    destruct (frun_snoc _ _ _ _ _ _ Hf Hcl Hsy) as (tr0&D0&c0&s0&Hf0&HD&Hc).
    assert (q ∈ D0) as Hq0.
    { destruct (decide (q ∈ D0)); [done|]. destruct (HD q Hq) as (ei&p'&->&H1&H2&H3); [done|]. exfalso.
      apply (Hnc ei p'); try done. apply elem_of_app. right. by left. }
    destruct (IH _ _ _ _ Hf0 Hcl0 Hsy0 Hno0 Hrm0 Hq0 Hpq Hnc0 Hge) as (c1&s1&K1&K2&K3&K4&K5).
    exists c1, s1. split; [done|]. split; [done|]. split; [done|].
    destruct Hc as [(_&Hc&_)|(E&o&r&_&HE&Hg&Hok&Hst&_)]; [by rewrite Hc|].
    pose proof (frun_fexec _ _ _ _ _ Hf0 Hcl0 Hsy0) as Hfx0.
    assert (cov (render slash q) g (st_log (c_st c0))) as Hcov0 by (apply K5; done).
    destruct (fexec_inv linux linux_ok slash _ _ _ Hfx0) as ([HD0 _]&_).
    destruct (srun_good _ _ _ (frun_srun _ _ _ _ _ Hf0) Hcl0 Hsy0) as [Ht Ho].
    destruct (nstep_thru linux linux_ok slash E (c_st c0) o (c_st c) r q g) as [H1 H2]; try done; [by apply HD0 in Hq0 as (_&?&_)|].
    split; [by etrans|by eapply thru_trans].
Qed.
Lemma quiet_not_writing c : quiescent c → ¬ writing c.
Proof. intros (H1&H2&_) [(i&o&Hi)|(ei&Hi)]; [by rewrite H1, lookup_empty in Hi|congruence]. Qed.
