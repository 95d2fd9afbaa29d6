(** * BsdConcFacts: facts about the runs of tree and kqueue watcher together *)
From Verif Require Import Base Event Watchpoint WatchpointFacts Paths PathsFacts Loop LoopFacts
  Node NodeFacts SpecTree WalkFacts RootFacts NonRec NonRecWp SpecNonRec SpecNonRecOS SpecOS NonRecFacts NonRecOps NonRecReg
  NonRecStep NonRecDisp NonRecStop NonRecOS NonRecCov NonRecBetween NonRecRun Prop_NonRec
  Clean SpecClean CleanFacts Trigger SpecTrigger TriggerFacts SpecKq KqFacts KqMon KqMonFacts
  TreeConc SpecTreeConc TreeConcFacts SpecTreeDeliver TreeDeliverFacts Prop_TreeConc Prop_TreeDeliver BsdConc.
From Verif Require LinuxConcFacts Prop_Kq Prop_Linux.
Local Open Scope N_scope.

Lemma kq_ok : platform_ok kqueue.
Proof. apply (Prop_Kq.trig_ok kq). by left. Qed.

(** ** Lists *)
Lemma btrees_app a b : btrees (a ++ b) = btrees a ++ btrees b.
Proof. unfold btrees. by rewrite omap_app. Qed.
Lemma bkqs_app a b : bkqs (a ++ b) = bkqs a ++ bkqs b.
Proof. unfold bkqs. by rewrite omap_app. Qed.
Lemma btrees_tree l ls : btrees (BTree l :: ls) = l :: btrees ls.
Proof. done. Qed.
Lemma btrees_send e ls : btrees (BSend e :: ls) = LReport (te_info e) :: btrees ls.
Proof. done. Qed.
Lemma btrees_kq l ls : btrees (BKq l :: ls) = btrees ls.
Proof. done. Qed.
Lemma bkqs_kq l ls : bkqs (BKq l :: ls) = l :: bkqs ls.
Proof. done. Qed.
Lemma bkqs_elem l ls : l ∈ bkqs ls → BKq l ∈ ls.
Proof. unfold bkqs. rewrite elem_of_list_omap. intros ([]&Hin&Heq); cbn in Heq; try done. by injection Heq as ->. Qed.
Lemma bkqs_split ls a x b : bkqs ls = a ++ x :: b → ∃ l1 l2, ls = l1 ++ BKq x :: l2 ∧ bkqs l1 = a ∧ bkqs l2 = b.
Proof.
  intros H. apply LinuxConcFacts.omap_split in H as (l1&y&l2&->&H1&Hy&H2). destruct y; cbn in Hy; try done. injection Hy as ->. by exists l1, l2.
Qed.
Lemma btrees_elem l ls : l ∈ btrees ls → (∀ ei, l ≠ LReport ei) → BTree l ∈ ls.
Proof.
  unfold btrees. rewrite elem_of_list_omap. intros ([]&Hin&Heq) Hn; cbn in Heq; try done; injection Heq as <-; [done|]. by edestruct Hn.
Qed.
Lemma sound_app a b : sound (a ++ b) → sound a.
Proof. intros H e He. apply H, elem_of_app. by left. Qed.

(** ** Runs *)
Lemma bruns_app B a b B' : bruns B (a ++ b) B' → ∃ B0, bruns B a B0 ∧ bruns B0 b B'.
Proof.
  revert B. induction a as [|l a IH]; intros B H; cbn [app] in H; [exists B; split; [constructor|done]|].
  inversion H as [|? ? B1 ? ? Hs H1]; subst. apply IH in H1 as (B0&H0&H2). exists B0. split; [by econstructor|done].
Qed.
Lemma bruns_join B a B0 b B' : bruns B a B0 → bruns B0 b B' → bruns B (a ++ b) B'.
Proof. induction 1 as [|? ? ? ? ? Hs _ IH]; intros H; [done|]. cbn [app]. econstructor; [exact Hs|by apply IH]. Qed.
Lemma bruns_one B l B' : bruns B [l] B' → bstep B l B'.
Proof. intros H. inversion H as [|? ? B1 ? ? Hs H1]; subst. by inversion H1; subst. Qed.
Lemma bruns_kruns B ls B' : bruns B ls B' → kruns (b_k B) (bkqs ls) (b_k B').
Proof.
  induction 1 as [|B l B' ls B'' Hs _ IH]; [constructor|].
  destruct Hs; cbn in *; try done; by econstructor.
Qed.
Lemma bruns_krun ls B : bruns binit ls B → krun (bkqs ls) (b_k B).
Proof. intros H%bruns_kruns. apply (kruns_krun [] kinit); [constructor|done]. Qed.
Lemma step_outer (ev1 ev2 : event_info → Prop) c l c' :
  step (nonrec_ops slash) (nenv kqueue slash) (ncall_ok kqueue slash) ev1 c l c' →
  (∀ ei, l = LReport ei → ev2 ei) →
  step (nonrec_ops slash) (nenv kqueue slash) (ncall_ok kqueue slash) ev2 c l c'.
Proof.
  intros Hs He. destruct Hs; [apply s_call|apply s_report|apply s_take|eapply s_want|eapply s_lock|eapply s_crit|eapply s_unlock|eapply s_ret
    |eapply s_rlock|eapply s_offer|eapply s_offer_rec|eapply s_offer_nil|eapply s_runlock|eapply s_fwd|eapply s_recv|eapply s_iwant
    |eapply s_ilock|eapply s_icrit|eapply s_iunlock|eapply s_idone]; eauto.
Qed.
Lemma bruns_nrun ls B : bruns binit ls B → sound ls → nrun kqueue slash (btrees ls) (b_c B).
Proof.
  revert B. induction ls as [|l ls IH] using rev_ind; intros B H Hso; [inversion H; constructor|].
  apply bruns_app in H as (B0&H0&Hs%bruns_one). specialize (IH _ H0 (sound_app _ _ Hso)). rewrite btrees_app.
  destruct Hs as [c k out cs l c' Hs Ho|c k out cs i o E t r Hi HE Hg Hst Hp Hm|c k out cs ei E t Hi HE Hg Hst Hp Hm| | | | |c k e out cs c' Hs];
    cbn [b_c btrees omap list_omap] in *; rewrite ?app_nil_r; try done.
  - eapply run_step; [exact IH|]. eapply step_outer; [exact Hs|]. by intros ei ->.
  - eapply run_step; [exact IH|]. by econstructor.
  - eapply run_step; [exact IH|]. by econstructor.
  - eapply run_step; [exact IH|]. eapply step_outer; [exact Hs|]. intros ei Heq. injection Heq as <-. apply Hso, elem_of_app. right. by left.
Qed.
(** The tree and the calls it has made. *)
Lemma bruns_good ls B : bruns binit ls B → sound ls → NonRecFacts.tinv kqueue slash (st_tree (c_st (b_c B))) ∧ osi kqueue slash (c_st (b_c B)).
Proof.
  revert B. induction ls as [|l ls IH] using rev_ind; intros B H Hso.
  - inversion H; subst. apply (nexec_osi kqueue kq_ok slash [] init_st). constructor.
  - apply bruns_app in H as (B0&H0&Hs%bruns_one). pose proof (sound_app _ _ Hso) as Hso0. destruct (IH _ H0 Hso0) as [Ht Ho].
    pose proof (bruns_nrun _ _ H0 Hso0) as Hr.
    destruct Hs as [c k out cs l c' Hs Hou|c k out cs i o E t r Hi HE Hg Hst Hp Hm|c k out cs ei E t Hi HE Hg Hst Hp Hm| | | | |c k e out cs c' Hs];
      cbn [b_c] in *; try done.
    + assert (c_st c' = c_st c) as -> by (destruct Hs; try done; [by destruct (decide _)|by destruct fwd]). done.
    + destruct (ki_thr _ _ _ (run_kinv _ _ _ _ _ _ Hr) _ _ _ Hi) as [[_ Hok] _]. cbn [c_st set_st].
      split; [by eapply (nstep_spec kqueue kq_ok slash E _ o)|by eapply (nstep_osi kqueue kq_ok slash E _ o)].
    + pose proof (di_int _ _ _ _ (run_dinv _ _ _ _ _ _ Hr)) as He. rewrite Hi in He. destruct He as (_&_&q&Hq&Heq).
      assert (nstep slash E (c_st c) (NEvent (ei_event ei) q) = (t, NonRec.ROk)) as Hn.
      { cbn [nstep]. f_equal. rewrite <-Hst. destruct ei as [ev q' isd ft]. cbn in Heq. by subst q'. }
      cbn [c_st set_st]. split; [by eapply (nstep_spec kqueue kq_ok slash E _ (NEvent (ei_event ei) q))|by eapply (nstep_osi kqueue kq_ok slash E _ (NEvent (ei_event ei) q))].
    + by inversion Hs.
Qed.
(** ** What is to be sent is sent. *)
Lemma out_sent B ls B' e : bruns B ls B' → e ∈ b_out B → b_out B' = [] → ∃ u v, ls = u ++ BSend e :: v.
Proof.
  induction 1 as [B|B l B' ls B'' Hs H IH]; intros He H0; [rewrite H0 in He; by apply elem_of_nil in He|].
  assert (e ∈ b_out B' → ∃ u v, l :: ls = u ++ BSend e :: v) as K.
  { intros He'. destruct (IH He' H0) as (u&v&->). by exists (l :: u), v. }
  destruct Hs; cbn [b_out] in *; try (by apply K); try (by apply elem_of_nil in He).
  apply elem_of_cons in He as [->|He]; [by exists [], ls|by apply K].
Qed.
(** The registration right after a Watch has had its effect. *)
Lemma effect_registered a i p isrec n e B :
  bruns binit (a ++ [BTree (LCrit i (NWatch p isrec n e) NonRec.ROk)]) B → sound a → incl_ev e (ureg (c_st (b_c B)) p n).
Proof.
  intros Hs Hso. assert (sound (a ++ [BTree (LCrit i (NWatch p isrec n e) NonRec.ROk)])) as Hso'.
  { intros x [?|Hx]%elem_of_app; [by apply Hso|]. by apply elem_of_list_singleton in Hx. }
  pose proof (bruns_nrun _ _ Hs Hso') as Hr.
  destruct (nrun_history kqueue kq_ok eq_refl slash _ _ Hr) as (tr&Hh&Hx). apply nexec_regs in Hx; [|apply kq_ok].
  pose proof Hr as Hr'. rewrite btrees_app, btrees_tree in Hh, Hr'. destruct (history_split _ _ _ _ _ _ _ Hh) as (t1&t2&->&Hf).
  assert (incl_ev (e .| rec_bit kqueue isrec) (ureg (c_st (b_c B)) p n)) as Hi.
  { eapply nregs_kept; [exact Hx| |].
    - intros r Hin. eapply Forall_forall in Hf; [|exact Hin]. destruct Hf as [(k&Hk)|(ei'&t&Hk&_)]; by apply elem_of_nil in Hk.
    - intros q r Hin. eapply Forall_forall in Hf; [|exact Hin]. destruct Hf as [(k&Hk)|(ei'&t&Hk&_)]; by apply elem_of_nil in Hk. }
  intros j Hj. apply Hi, has_lor. by left.
Qed.
(** What the watcher is asked for then, *)
Lemma effect_direct a i p isrec n e B ty L r x :
  bruns binit (a ++ [BTree (LCrit i (NWatch p isrec n e) NonRec.ROk)]) B → sound a →
  kdrives kq ty (st_log (c_st (b_c B))) L r (k_t (b_k B)) → direct r (render slash p) ≠ 0 → comps_ok slash p →
  incl_ev x e → x ≠ 0 → disj_ev x (internal kqueue) →
  log_legal kqueue (st_log (c_st (b_c B))) ∧ incl_ev x (direct r (render slash p)).
Proof.
  intros Hs Hso Hk Hd Hp Hx Hx0 Hxi. assert (sound (a ++ [BTree (LCrit i (NWatch p isrec n e) NonRec.ROk)])) as Hso'.
  { intros z [?|Hz]%elem_of_app; [by apply Hso|]. by apply elem_of_list_singleton in Hz. }
  pose proof (effect_registered _ _ _ _ _ _ _ Hs Hso) as Hreg. destruct (bruns_good _ _ Hs Hso') as [_ Ho].
  assert (∃ y, wp_at (st_tree (c_st (b_c B))) p !! KUser n = Some y ∧ incl_ev x y) as (y&Hy&Hxy).
  { unfold ureg, wget in Hreg. destruct (wp_at (st_tree (c_st (b_c B))) p !! KUser n) as [y|].
    - exists y. split; [done|]. intros j Hj. by apply Hreg, Hx.
    - exfalso. apply nonzero_bit in Hx0 as [j Hj]. apply (has_0 j), Hreg, Hx, Hj. }
  destruct (reg_cov kqueue slash _ p n y x Ho Hp Hy Hxy Hxi Hx0) as (m&rc&Hm&Hxm).
  pose proof (kdrives_direct kq ty kqueue _ _ _ _ _ Hk (oi_legal _ _ _ Ho) Hd) as Hdir. rewrite Hm in Hdir. injection Hdir as -> _.
  split; [apply (oi_legal _ _ _ Ho)|done].
Qed.
(** for the path itself or what was listed in it. *)
Lemma role_entry log ty L r ts q x : kdrives kq ty log L r ts → x ≠ 0 → incl_ev x (direct r q) ∨ incl_ev x (member r q) →
  ∃ w, tw_at ts q = Some w ∧ incl_ev x (tw_e w) ∧ tw_dir w = ty q.
Proof.
  intros Hk Hx0 Hx. assert (incl_ev x (direct r q .| member r q)) as Hi.
  { intros j Hj. apply has_lor. destruct Hx as [Hx|Hx]; [left|right]; by apply Hx. }
  destruct (kdrives_table kq ty _ _ _ _ q Hk) as [w Hw].
  { intros Hz. rewrite Hz in Hi. apply nonzero_bit in Hx0 as [j Hj]. by apply (has_0 j), Hi. }
  destruct (kdrives_entry kq ty _ _ _ _ _ _ Hk Hw) as (_&He&_&Hdi&_). exists w. split_and!; [done| |done]. by rewrite He.
Qed.
(** A request stays while what comes spares it. *)
Lemma kruns_holds e0 d0 l1 s ls s' q i fd : krun l1 s → kruns s ls s' → (∀ l, l ∈ ls → spares l q) →
  holds e0 d0 (k_t s) q i fd → holds e0 d0 (k_t s') q i fd.
Proof.
  intros H1 H. revert l1 H1. induction H as [|s l s' ls s'' Hs _ IH]; intros l1 H1 Hsp Hh; [done|].
  eapply (IH (l1 ++ [l])); [by econstructor|intros z Hz; apply Hsp; by right|].
  exact (kstep_holds _ _ _ _ _ _ _ _ (krun_inv _ _ H1) Hs (Hsp l ltac:(by left)) Hh).
Qed.
Lemma kruns_tw l1 s ls s' q w : krun l1 s → kruns s ls s' → (∀ l, l ∈ ls → spares l q) → tw_at (k_t s) q = Some w →
  ∃ w', tw_at (k_t s') q = Some w' ∧ incl_ev (tw_e w) (tw_e w') ∧ tw_dir w' = tw_dir w.
Proof.
  intros H1 H Hsp Hw. unfold tw_at in Hw. destruct (ts_path (k_t s) !! q) as [i|] eqn:E; [|done]. cbn in Hw.
  destruct (kruns_holds (tw_e w) (tw_dir w) l1 s ls s' q i (tw_fd w) H1 H Hsp) as (Hp&w'&Hw'&_&He&Hd).
  { split; [done|]. exists w. split_and!; try done. by intros j Hj. }
  exists w'. split_and!; [|done|done]. unfold tw_at. by rewrite Hp.
Qed.

(** ** Runs on a filesystem *)
Lemma bfrun_bruns ls tr D B : bfrun ls tr D B → bruns binit ls B.
Proof.
  induction 1; [constructor|..]; (eapply bruns_join; [eassumption|]); (econstructor; [eassumption|constructor]).
Qed.
Lemma bcrit_nop ls B i o r : bruns binit ls B → sound ls → BTree (LCrit i o r) ∈ ls → is_call o ∧ nop_ok kqueue slash o.
Proof.
  intros Hs Hso Hin. eapply (crit_ok _ _ _ _ _ _ i o r (bruns_nrun _ _ Hs Hso)). apply elem_of_list_omap. by eexists.
Qed.
Lemma bfrun_fexec ls tr D B : bfrun ls tr D B → sound ls → fexec kqueue slash tr D (c_st (b_c B)).
Proof.
  intros Hf. induction Hf as [D HD|ls tr D B l B' Hf IH Hs Hst Hl1 Hl2|ls tr D B i o r E B' Hf IH Hs HE Hg HF Hst
    |ls tr D D' p B ei E B' Hf IH Hs Hev Hp HE Hrel HD HF H1 H2 H3 H4 H5 Hst
    |ls tr D D' p B ei E B' Hf IH Hs Hev Hp Hgp HE Hrel H1 Hst]; intros Hso; pose proof (sound_app _ _ Hso) as Hso0 || idtac.
  - by constructor.
  - rewrite Hst. by apply IH.
  - assert (bruns binit (ls ++ [BTree (LCrit i o r)]) B') as Hr.
    { eapply bruns_join; [by eapply bfrun_bruns|]. econstructor; [exact Hs|constructor]. }
    destruct (bcrit_nop _ _ i o r Hr Hso) as [Hc Hok]; [apply elem_of_app; right; by left|].
    eapply fx_op; try done; [by apply IH|]. by intros ev p ->.
  - eapply fx_mkdir; try done; [by apply IH|]. rewrite <-Hev, <-Hst. by apply LinuxConcFacts.internal_nstep.
  - eapply fx_rmdir; try done; [by apply IH|]. rewrite <-Hev, <-Hst. by apply LinuxConcFacts.internal_nstep.
Qed.
(** A recursive Watch has just had its effect: the watcher is asked to watch every directory
    below for what it asks for. *)
Lemma effect_below a i p n e tr D B ty L r d :
  bfrun (a ++ [BTree (LCrit i (NWatch p true n e) NonRec.ROk)]) tr D B → sound a →
  kdrives kq ty (st_log (c_st (b_c B))) L r (k_t (b_k B)) → direct r (render slash d) ≠ 0 → d ∈ D → p `prefix_of` d →
  log_legal kqueue (st_log (c_st (b_c B))) ∧ incl_ev e (direct r (render slash d)).
Proof.
  intros Hf Hso Hk Hd HdD Hpd. assert (sound (a ++ [BTree (LCrit i (NWatch p true n e) NonRec.ROk)])) as Hso'.
  { intros z [?|Hz]%elem_of_app; [by apply Hso|]. by apply elem_of_list_singleton in Hz. }
  destruct (bruns_good _ _ (bfrun_bruns _ _ _ _ Hf) Hso') as [_ Ho].
  pose proof (bfrun_fexec _ _ _ _ Hf Hso') as Hx.
  assert (in_force kqueue tr p n e) as Hfo.
  { remember (a ++ [BTree (LCrit i (NWatch p true n e) NonRec.ROk)]) as ls eqn:E.
    destruct Hf as [D HD|ls tr D B l B' Hf Hs Hst Hl1 Hl2|ls tr D B i' o r' En B' Hf Hs HE Hg HF Hst
      |ls tr D D' q B ei En B' Hf Hs Hev Hp HE Hrel HD HF H1 H2 H3 H4 H5 Hst
      |ls tr D D' q B ei En B' Hf Hs Hev Hp Hgp HE Hrel H1 Hst].
    - by destruct a.
    - apply app_inj_tail in E as [_ ->]. by edestruct Hl1.
    - apply app_inj_tail in E as [_ E]. injection E as -> -> ->. exists tr, []. split_and!; [done|by intros r0 Hr0%elem_of_nil|by intros q0 r0 Hr0%elem_of_nil].
    - apply app_inj_tail in E as [_ E]. discriminate E.
    - apply app_inj_tail in E as [_ E]. discriminate E. }
  destruct (fexec_covered kqueue kq_ok slash _ _ _ p n e d Hx Hfo HdD Hpd) as (m&Hm&Hi).
  pose proof (kdrives_direct kq ty kqueue _ _ _ _ _ Hk (oi_legal _ _ _ Ho) Hd) as Hdir. rewrite Hm in Hdir. injection Hdir as ->.
  split; [apply (oi_legal _ _ _ Ho)|]. intros j Hj. apply Hi, has_lor. by left.
Qed.
