(** * RecOSStop: Stop on the recursive tree keeps the OS watches as they should be,
    and so does every orderly history *)
From Verif Require Import Base Event Watchpoint WatchpointFacts Paths PathsFacts Loop LoopFacts
  Node NodeFacts SpecTree WalkFacts RootFacts NonRec NonRecWp Rec SpecNonRec SpecOS SpecRec RecFacts RecReg RecStop RecDisp RecStep RecTidy RecCopy RecOS RecOrder.
Local Open Scope N_scope.

Section order.
Context (P : platform) (HP : platform_ok P) (sepc : ascii) (w : bool) (isvol : str → Prop) (strict : bool).
Notation nameof := (nameof sepc w).
Notation renv := (renv P sepc w isvol).
Notation rpath := (rpath sepc w isvol).
Notation rinv := (rinv P sepc w isvol).
Notation wpt := (wpt P).
Notation wt := (wt P).
Notation wrec := (RecOS.wrec P strict).
Notation tidy := (tidy P sepc w isvol strict).
Notation sound := (sound P sepc w isvol strict).
Notation watched m q := (is_Some (m !! nameof q)).
Notation osm s := (os_watches (st_log s)).

Section env.
Context (E : env) (HE : renv E) (HO : obliging P E) (n : positive).
Let Hinj : ∀ p q, rpath p → rpath q → nameof p = nameof q → p = q := λ p q, name_inj P sepc w isvol E p q HE.
Let HEp : e_plat E = P := re_plat _ _ _ _ _ HE.
Notation c := (KUser n).
Notation sdel := (sdel P n).
Notation stopping := (stopping P sepc w isvol n).
Notation stopped := (stopped P n).

Lemma sdel_has wp k i : wpt wp → has (wget (sdel wp) (KUser k)) i ↔ k ≠ n ∧ has (wget wp (KUser k)) i.
Proof.
  intros Hw. rewrite (sdel_user P) by apply Hw. destruct (decide (k = n)) as [->|]; [|naive_solver].
  split; [intros K; by apply has_0 in K|naive_solver].
Qed.
Lemma sdel_incl wp : wpt wp → incl_ev (wtotal P (sdel wp)) (wtotal P wp).
Proof.
  intros Hw i. rewrite !has_wtotal by (try apply wpt_sdel; done). intros (k&K&Ki). exists k. split; [|done].
  by apply sdel_has in K as [_ K].
Qed.
Lemma sdel_rec wp : wpt wp → isRecursive P (sdel wp) = true → isRecursive P wp = true.
Proof.
  intros Hw K. apply (isRecursive_true P) in K as [k [i [K1 K2]%has_land]%nonzero_bit]; [|by apply wpt_sdel].
  apply sdel_has in K1 as [_ K1]; [|done]. apply (isRecursive_user P _ k); [done|]. apply nonzero_bit. exists i. by apply has_land.
Qed.

Section stop.
Context (t0 : tree) (m0 : ostab) (Ht : tidy t0 m0) (Hord : orderly_stop P sepc w isvol (rgs t0) m0 n).
Let Hw0 : ∀ q, wpt (wp_at t0 q) := td_wp _ _ _ _ _ _ _ Ht.
Let Hcl : closed t0 := rinv_closed _ _ _ _ _ (td_inv _ _ _ _ _ _ _ Ht).

(** The totals once stopped. *)
Definition wt1 (h : path) : N := wtotal P (sdel (wp_at t0 h)) .| wtotal P (sdel (wp_at t0 (inact h))).
Definition wrec1 (h : path) : Prop := strict = true ∧ (isRecursive P (sdel (wp_at t0 h)) = true ∨ sdel (wp_at t0 (inact h)) ≠ ∅).
Lemma stopped_wt h s : stopped t0 h s → wt (st_tree s) h = wt1 h ∧ (wrec (st_tree s) h ↔ wrec1 h).
Proof. intros [H1 H2]. unfold RecTidy.wt, RecOS.wrec, RecTidy.wrec, wt1, wrec1. by rewrite H1, H2. Qed.
Lemma wrec1_wrec h : wrec1 h → wrec t0 h.
Proof.
  intros [Hst [K|K]]; (split; [done|]); [left; by apply sdel_rec|right]. intros K'. apply K. by rewrite K', sdel_empty.
Qed.
(** At a watched node the total changes in the way the tree notices. *)
Lemma watched_diff h : rpath h → watched m0 h →
  let T := wtotal P (wp_at t0 h) in let I := wtotal P (wp_at t0 (inact h)) in
  let T' := wtotal P (sdel (wp_at t0 h)) in let I' := wtotal P (sdel (wp_at t0 (inact h))) in
  I = I' ∨ T ≠ T' ∨ incl_ev T I'.
Proof.
  intros Hh Wh. cbv zeta.
  assert (∀ wp i, wpt wp → has (wtotal P (sdel wp)) i ↔ ∃ k, k ≠ n ∧ has (wget wp (KUser k)) i ∧ ¬ has (internal P) i) as Hs.
  { intros wp i Hw. rewrite has_wtotal by (by apply wpt_sdel). split.
    - intros (k&K1&K2). apply sdel_has in K1 as [? ?]; [|done]. by exists k.
    - intros (k&K1&K2&K3). exists k. split; [|done]. by apply sdel_has. }
  assert (∀ i, ev_below P (without (rgs t0) n) h i → has (wtotal P (sdel (wp_at t0 (inact h)))) i) as Hb.
  { intros i (q&Hq&k&K1&K2). apply Hs; [done|]. exists k. unfold without in K1.
    destruct (decide (k = n)) as [|Hk]; [by apply has_0 in K1|]. split_and!; try done.
    unfold rgs in K1. destruct (decide ([] ∈ q)) as [|Hqp]; [by apply has_0 in K1|].
    by apply (td_cov _ _ _ _ _ _ _ Ht h q k i). }
  assert (∀ i, has (wtotal P (wp_at t0 h)) i → ev_at P (rgs t0) h i) as Ha.
  { intros i (k&K1&K2)%has_wtotal; [|done]. exists k. split; [|done]. by rewrite rgs_plain by apply Hh. }
  destruct (Hord h Hh Wh) as [K|[(i&K1&K2)|K]].
  - left. apply has_ext. intros i. split; [|intros X; by apply (sdel_incl _ (Hw0 _)) in X].
    intros (k&K1&K2)%has_wtotal; [|done]. apply Hb, K.
    destruct (td_in _ _ _ _ _ _ _ Ht h k i (proj1 Hh) K1) as (q&Q1&Q2&Q3). exists q. split; [done|]. exists k. split; [|done].
    by rewrite rgs_plain.
  - right; left. intros Heq. apply K2.
    assert (has (wtotal P (wp_at t0 h)) i) as X.
    { destruct K1 as (k&X1&X2). rewrite rgs_plain in X1 by apply Hh. apply has_wtotal; [done|]. by exists k. }
    rewrite Heq in X. apply Hs in X as (k&X1&X2&X3); [|done]. exists k. split; [|done]. unfold without. rewrite decide_False by done.
    by rewrite rgs_plain by apply Hh.
  - right; right. intros i Hi. by apply Hb, K, Ha.
Qed.

(** The entry of a watched node that has been stopped. *)
Definition final (h : path) (v : option (N * bool)) : Prop :=
  (wt1 h = 0 → v = None) ∧ (wt1 h ≠ 0 → ∃ k, v = Some (wt1 h, k) ∧ (wrec1 h → k = true)).
Definition fresh (h : path) (s : st) : Prop :=
  wp_at (st_tree s) h = wp_at t0 h ∧ wp_at (st_tree s) (inact h) = wp_at t0 (inact h) ∧ osm s !! nameof h = m0 !! nameof h.
Definition done_with (h : path) (s : st) : Prop := (∀ q, reach t0 h q → stopped t0 q s) ∧ final h (osm s !! nameof h).
Record going (s : st) : Prop := {
  go_st : stopping t0 s;
  go_calm : st_panic s = false;
  go_legal : log_legal P (st_log s);
  go_os : ∀ x, is_Some (osm s !! x) → is_Some (m0 !! x);
  go_each : ∀ h, rpath h → watched m0 h → fresh h s ∨ done_with h s;
}.
Definition past (q : path) (s : st) : Prop :=
  stopped t0 q s ∧ (rpath q → watched m0 q → ∀ q', reach t0 q q' → stopped t0 q' s).

Lemma reach_self h : is_Some (t0 !! h) → reach t0 h h.
Proof. intros H. split; [done|]. exists []. split; [by rewrite app_nil_r|by intros ?%elem_of_nil]. Qed.

(** Deleting at a node where nothing is left to delete: no call, and only
    watchpoints below change. *)
Lemma rstop_none s h : (rwatchDel E s h c all32).2 = none → stopping t0 s → [] ∉ h → is_Some (t0 !! h) →
  st_log (rstop_fn E c s h).1 = st_log s ∧
  (∀ q, ¬ h `prefix_of` q → wp_at (st_tree (rstop_fn E c s h).1) q = wp_at (st_tree s) q) ∧
  (wt (st_tree (rwatchDel E s h c all32).1) h = 0 →
     (rstop_fn E c s h).2 = CNil ∧
     ∀ q, q ≠ h → q ≠ inact h → wp_at (st_tree (rstop_fn E c s h).1) q = wp_at (st_tree s) q).
Proof.
  intros Hd Hst Hh Hs. unfold rstop_fn.
  destruct (stopping_del P sepc w isvol E HE n t0 s h Hst Hh Hs) as (L1&_&_).
  assert (is_Some (st_tree s !! h)) as Hs' by (by apply (sg_nodes _ _ _ _ _ _ _ Hst)).
  destruct (rwatchDel_wp P sepc w isvol E HE n s h (sg_inv _ _ _ _ _ _ _ Hst) Hh Hs') as (_&_&M1&M2).
  destruct (rwatchDel E s h c all32) as [s1 d]. cbn [fst snd] in *. subst d.
  change (is_none none) with true. cbn [andb]. rewrite (watchTotal_wt P E) by done.
  assert (∀ q, ¬ h `prefix_of` q → wp_at (st_tree s1) q = wp_at (st_tree s) q) as Hq1.
  { intros q Hq. rewrite M2, decide_False; [done|]. intros [->| ->]; apply Hq; [done|]. by apply prefix_app_r. }
  destruct (N.eqb_spec (wt (st_tree s1) h) 0) as [Hz|Hz]; cbn [fst snd].
  - split_and!; try done. intros _. split; [done|]. intros q K1 K2. rewrite M2, decide_False; [done|]. tauto.
  - destruct (walk_del_spec P sepc w isvol E HE n t0 s1 h L1 Hcl Hh Hs) as (_&_&K3&_&_&K6).
    split_and!; [by rewrite K3| |done]. intros q Hq. rewrite K6 by done. by apply Hq1.
Qed.
Lemma stopped_none s h : stopped t0 h s → stopping t0 s → [] ∉ h → is_Some (t0 !! h) → (rwatchDel E s h c all32).2 = none.
Proof.
  intros [S1 S2] Hst Hh Hs. assert (is_Some (st_tree s !! h)) as Hs' by (by apply (sg_nodes _ _ _ _ _ _ _ Hst)).
  destruct (rwatchDel_wp P sepc w isvol E HE n s h (sg_inv _ _ _ _ _ _ _ Hst) Hh Hs') as (_&_&_&M2).
  rewrite (rwatchDel_diff P sepc w isvol E HE n s h (sg_inv _ _ _ _ _ _ _ Hst) Hh Hs').
  - unfold RecTidy.wt. rewrite !M2, !decide_True by auto. rewrite S1, S2, !sdel_idem. unfold norm. by rewrite N.eqb_refl.
  - rewrite S2, sdel_idem. by intros i.
  - rewrite S2, sdel_idem. by left.
Qed.

(** A visit without a call. *)
Lemma visit_quiet s h :
  going s → [] ∉ h → is_Some (t0 !! h) → stopped t0 h s →
  (rpath h → watched m0 h → ∀ q, reach t0 h q → stopped t0 q s) →
  (∀ q, rpath q → watched m0 q → q ≠ h → ¬ h `prefix_of` q ∨ wt1 h = 0) →
  going (rstop_fn E c s h).1 ∧ (rstop_fn E c s h).2 ≠ CErr ∧ past h (rstop_fn E c s h).1 ∧
  ((rstop_fn E c s h).2 = CSkip → ∀ q, reach t0 h q → stopped t0 q (rstop_fn E c s h).1).
Proof.
  intros Hg Hh Hs Hst Hrch Hoth. pose proof (go_st _ Hg) as Hgs.
  destruct (rstop_spec P sepc w isvol E HE n t0 s h Hgs Hcl Hh Hs) as (L1&L2&L3&L4&L5&L6).
  pose proof (stopped_none s h Hst Hgs Hh Hs) as Hnone.
  destruct (rstop_none s h Hnone Hgs Hh Hs) as (N1&N2&N3).
  destruct (stopping_del P sepc w isvol E HE n t0 s h Hgs Hh Hs) as (_&D2&_).
  rewrite (proj1 (stopped_wt _ _ D2)) in N3.
  split_and!; try done.
  - split; try done.
    + by rewrite L2, (go_calm _ Hg).
    + rewrite N1. apply Hg.
    + rewrite N1. apply Hg.
    + intros q Hq Wq. destruct (go_each _ Hg q Hq Wq) as [(F1&F2&F3)|[F1 F2]].
      * destruct (decide (q = h)) as [->|Hne].
        -- right. split; [intros q' Hq'; by apply L6, Hrch|]. rewrite N1, F3. destruct Wq as [[x k] Hv].
           destruct (td_at P sepc w isvol strict Hinj _ _ _ _ Ht Hq Hv) as (V1&V2&_&V4). cbn [fst snd] in *. subst x.
           rewrite Hv. assert (wt t0 h = wt1 h) as Hwt.
           { rewrite <-(proj1 (stopped_wt _ _ Hst)). unfold RecTidy.wt. by rewrite F1, F2. }
           split; [congruence|]. intros _. exists k. rewrite Hwt. split; [done|]. intros K. by apply V4, wrec1_wrec.
        -- left. assert ([] ∉ q) as Hqp by apply Hq. unfold fresh. rewrite N1.
           destruct (Hoth q Hq Wq Hne) as [Hnp|Hz].
           ++ assert (¬ h `prefix_of` inact q) as Hni.
              { intros [r Hr]. unfold inact in Hr. destruct r as [|x r _] using rev_ind.
                - rewrite app_nil_r in Hr. apply Hh. rewrite <-Hr. apply elem_of_app. right. left.
                - rewrite app_assoc in Hr. apply app_inj_tail in Hr as [-> _]. apply Hnp. by apply prefix_app_r. }
              rewrite !N2 by done. done.
           ++ destruct (N3 Hz) as [_ N4]. rewrite !N4; [done|..]; try done.
              ** intros K. symmetry in K. by apply (inact_ne q h) in K.
              ** intros K. apply app_inj_tail in K as [K _]. done.
              ** by apply inact_ne.
      * right. split; [auto|]. by rewrite N1.
  - split; [done|]. intros K1 K2 q Hq. by apply L6, Hrch.
Qed.

(** A visit of a watched node. *)
Lemma visit_watched s h :
  going s → rpath h → watched m0 h → is_Some (t0 !! h) → fresh h s →
  going (rstop_fn E c s h).1 ∧ (rstop_fn E c s h).2 = CSkip ∧ (∀ q, reach t0 h q → stopped t0 q (rstop_fn E c s h).1).
Proof.
  intros Hg Hh Wh Hs (F1&F2&F3). pose proof (go_st _ Hg) as Hgs. assert ([] ∉ h) as Hhp by apply Hh.
  destruct Wh as [[x k] Hv] eqn:EW. clear EW.
  destruct (td_at P sepc w isvol strict Hinj _ _ _ _ Ht Hh Hv) as (V1&V2&_&V4). cbn [fst snd] in V1, V4. subst x.
  assert (is_Some (st_tree s !! h)) as Hs' by (by apply (sg_nodes _ _ _ _ _ _ _ Hgs)).
  unfold rstop_fn.
  destruct (stopping_del P sepc w isvol E HE n t0 s h Hgs Hhp Hs) as (L1&L2&L3).
  destruct (rwatchDel_wp P sepc w isvol E HE n s h (sg_inv _ _ _ _ _ _ _ Hgs) Hhp Hs') as (_&M0&M1&M2).
  pose proof (rwatchDel_diff P sepc w isvol E HE n s h (sg_inv _ _ _ _ _ _ _ Hgs) Hhp Hs') as Hd.
  cbv zeta in Hd. rewrite F1, F2 in Hd.
  specialize (Hd (sdel_incl _ (Hw0 _)) (watched_diff h Hh (ex_intro _ _ Hv))).
  destruct (rwatchDel E s h c all32) as [s1 d]. cbn [fst snd] in *.
  destruct (stopped_wt _ _ L2) as [W1 W2]. rewrite W1 in Hd.
  assert (wt (st_tree s) h = wt t0 h) as W3 by (unfold RecTidy.wt; by rewrite F1, F2). rewrite W3 in Hd. subst d.
  rewrite norm_none, (watchTotal_wt P E), W1 by done.
  rewrite (rinv_name _ _ _ _ _ h (sg_inv _ _ _ _ _ _ _ L1) Hhp) by (by apply (sg_nodes _ _ _ _ _ _ _ L1)).
  assert ((wt t0 h =? wt1 h) && (wt1 h =? 0) = false) as ->.
  { destruct (N.eqb_spec (wt t0 h) (wt1 h)) as [Heq|]; [|done]. rewrite <-Heq. by apply N.eqb_neq. }
  set (s2 := if wt t0 h =? wt1 h then s1 else _).
  assert (st_tree s2 = st_tree s1 ∧ st_panic s2 = st_panic s1 ∧ log_legal P (st_log s2) ∧ final h (osm s2 !! nameof h) ∧
    ∀ y, y ≠ nameof h → osm s2 !! y = osm s !! y) as (G1&G2&G3&G4&G5).
  { assert (log_legal P (st_log s1)) as Hlg by (rewrite M1; apply Hg).
    assert (osm s1 = osm s) as Hm1 by (by rewrite M1). rewrite Hv in F3.
    unfold s2. clear s2. destruct (N.eqb_spec (wt t0 h) (wt1 h)) as [Heq|Hne].
    { split_and!; try done; [|intros y _; by rewrite Hm1]. rewrite Hm1, F3. split; [congruence|]. intros _. exists k.
      rewrite Heq. split; [done|]. intros K. by apply V4, wrec1_wrec. }
    rewrite norm_ne by done. cbn [fst snd].
    assert (∀ cc v, legal P (osm s1) cc → os_step (osm s1) (cc, true) = partial_alter (λ _, v) (nameof h) (osm s1) → final h v →
      let s2 := (wcallf E s1 cc).1 in
      st_tree s2 = st_tree s1 ∧ st_panic s2 = st_panic s1 ∧ log_legal P (st_log s2) ∧ final h (osm s2 !! nameof h) ∧
      ∀ y, y ≠ nameof h → osm s2 !! y = osm s !! y) as Hcall.
    { intros cc v Hcc Hstep Hfin. destruct (call_ok P E HO s1 cc Hlg Hcc) as (s2&->&C1&C2&C3&C4). cbn [fst].
      rewrite C3, Hstep. split_and!; try done; [by rewrite lookup_partial_alter|].
      intros y Hy. rewrite lookup_partial_alter_ne by done. by rewrite Hm1. }
    assert (wrec1 h → watchIsRecursive E (st_tree s1) h = true) as Hwr.
    { intros [_ K]%W2. by apply (watchIsRecursive_wrec P HP E). }
    destruct (N.eqb_spec (wt1 h) 0) as [Hz|Hz].
    - assert (final h None) as Hfin by (by split).
      destruct (watchIsRecursive E (st_tree s1) h); apply (Hcall _ None); try done; cbn [legal]; rewrite Hm1, F3; eauto.
    - assert (disj_ev (wt1 h) (internal P)) as Hint by (rewrite <-W1; apply wt_int).
      destruct (watchIsRecursive E (st_tree s1) h).
      + apply (Hcall _ (Some (wt1 h, true))).
        * cbn [legal]. rewrite Hm1, F3. by split_and!.
        * cbn [os_step]. by rewrite insert_delete_insert.
        * split; [done|]. intros _. by exists true.
      + apply (Hcall _ (Some (wt1 h, false))).
        * cbn [legal]. rewrite Hm1, F3. by split_and!.
        * done.
        * split; [done|]. intros _. exists false. split; [done|]. intros K. by apply Hwr in K. }
  clearbody s2. cbn [fst snd].
  destruct (walk_del_spec P sepc w isvol E HE n t0 s2 h) as (K1&K2&K3&K4&K5&K6); try done.
  { eapply stopping_tree; [exact G1|done]. }
  set (s3 := (nd_walk E _ s2 h).1) in *. split_and!; [|done|done].
  assert (∀ q, stopped t0 q s → stopped t0 q s3) as Hkeep.
  { intros q Hq. apply K5. eapply stopped_tree; [exact G1|]. auto. }
  split; try done.
  - rewrite K2, G2, M0. apply Hg.
  - by rewrite K3.
  - intros y Hy. rewrite K3 in Hy. destruct (decide (y = nameof h)) as [->|Hne]; [by rewrite Hv|].
    rewrite G5 in Hy by done. by apply (go_os _ Hg).
  - intros q Hq Wq. destruct (decide (q = h)) as [->|Hne].
    { right. split; [done|]. by rewrite K3. }
    assert (nameof q ≠ nameof h) as Hnn by (intros K; by apply Hinj in K).
    destruct (go_each _ Hg q Hq Wq) as [(Q1&Q2&Q3)|[Q1 Q2]].
    + left. unfold fresh. rewrite K3, (G5 _ Hnn), Q3.
      assert (¬ h `prefix_of` q) as Hnp.
      { intros K. apply Hne. by apply (td_uniq P sepc w isvol strict _ _ q h q Ht). }
      assert (¬ h `prefix_of` inact q) as Hni.
      { intros [r Hr]. unfold inact in Hr. destruct r as [|x r _] using rev_ind.
        - rewrite app_nil_r in Hr. apply Hhp. rewrite <-Hr. apply elem_of_app. right. left.
        - rewrite app_assoc in Hr. apply app_inj_tail in Hr as [-> _]. apply Hnp. by apply prefix_app_r. }
      rewrite !K6, G1, !M2 by done. rewrite !decide_False; [done|..].
      * intros [K|K]; [by apply (inact_ne q h) in Hhp|]. apply app_inj_tail in K as [K _]. done.
      * intros [K|K]; [done|]. by apply (inact_ne h q) in K; [|apply Hq].
    + right. split; [auto|]. by rewrite K3, G5.
Qed.

Lemma visit s h :
  going s → [] ∉ h → is_Some (t0 !! h) → (∀ q, above q h → past q s) →
  going (rstop_fn E c s h).1 ∧ (rstop_fn E c s h).2 ≠ CErr ∧ past h (rstop_fn E c s h).1 ∧
  ((rstop_fn E c s h).2 = CSkip → ∀ q, reach t0 h q → past q (rstop_fn E c s h).1).
Proof.
  intros Hg Hh Hs Hab.
  assert (∀ x q, (∀ q', reach t0 h q' → stopped t0 q' x) → reach t0 h q → past q x) as Hpast.
  { intros x q Hx [Hq (r&->&Hr)]. split; [apply Hx; split; [done|by exists r]|]. intros _ _ q' [Hq' (r'&->&Hr')].
    apply Hx. split; [done|]. exists (r ++ r'). rewrite app_assoc. split; [done|]. rewrite elem_of_app. tauto. }
  assert (∀ q, rpath q → watched m0 q → above q h → stopped t0 h s ∧ ∀ q', reach t0 h q' → stopped t0 q' s) as Hbelow.
  { intros q Hq Wq Hqh. destruct (Hab q Hqh) as [_ K]. specialize (K Hq Wq).
    destruct Hqh as [[r Hr] _]. subst h. assert ([] ∉ r) as Hrp by (intros ?; apply Hh, elem_of_app; by right).
    split; [apply K; split; [done|by exists r]|]. intros q' [Hq' (r'&->&Hr')]. apply K. split; [done|].
    exists (r ++ r'). rewrite app_assoc. split; [done|]. rewrite elem_of_app. tauto. }
  destruct (decide (wt t0 h = 0)) as [Hz|Hz].
  - destruct (wt_zero P _ _ (Hw0 h) (Hw0 (inact h)) Hz) as [Z1 Z2].
    assert (stopped t0 h s) as Hst.
    { pose proof (sg_wp _ _ _ _ _ _ _ (go_st _ Hg)) as Hwp. unfold RecStop.stopped. rewrite Z1, Z2, sdel_empty.
      destruct (Hwp h) as [-> | ->], (Hwp (inact h)) as [-> | ->]; by rewrite ?Z1, ?Z2, ?sdel_empty. }
    assert (wt1 h = 0) as Hz1 by (unfold wt1; by rewrite Z1, Z2, sdel_empty, wtotal_empty).
    assert (¬ (rpath h ∧ watched m0 h)) as Hnw.
    { intros [K1 [v Hv]]. by destruct (td_at P sepc w isvol strict Hinj _ _ _ _ Ht K1 Hv) as (_&?&_). }
    destruct (visit_quiet s h Hg Hh Hs Hst) as (R1&R2&R3&R4); [naive_solver|auto|].
    split_and!; try done. intros K q Hq. apply Hpast; auto.
  - destruct (td_top _ _ _ _ _ _ _ Ht h Hh Hz) as (q&Hq&Hpre&Wq).
    assert (∀ q', rpath q' → watched m0 q' → q' ≠ h → ¬ h `prefix_of` q') as Hnb.
    { intros q' Q1 Q2 Q3 Q4. assert (q = q') as ->. { eapply (td_uniq P sepc w isvol strict _ _ q q' q' Ht); try done. by etrans. }
      apply Q3. by apply (anti_symm prefix). }
    destruct (decide (q = h)) as [->|Hne].
    + destruct (go_each _ Hg h Hq Wq) as [Hf|Hd].
      * destruct (visit_watched s h Hg Hq Wq Hs Hf) as (R1&R2&R3). rewrite R2. split_and!; try done.
        -- apply Hpast; [done|]. by apply reach_self.
        -- intros _ q' Hq'. by apply Hpast.
      * destruct Hd as [Hd _]. destruct (visit_quiet s h Hg Hh Hs (Hd h (reach_self h Hs))) as (R1&R2&R3&R4); [done|eauto|].
        split_and!; try done. intros K q' Hq'. apply Hpast; auto.
    + destruct (Hbelow q Hq Wq (conj Hpre Hne)) as [Hst Hall].
      destruct (visit_quiet s h Hg Hh Hs Hst) as (R1&R2&R3&R4); [done|eauto|].
      split_and!; try done. intros K q' Hq'. apply Hpast; auto.
Qed.
Lemma past_keep s h q : going s → [] ∉ h → is_Some (t0 !! h) → past q s → past q (rstop_fn E c s h).1.
Proof.
  intros Hg Hh Hs [K1 K2].
  destruct (rstop_spec P sepc w isvol E HE n t0 s h (go_st _ Hg) Hcl Hh Hs) as (_&_&_&_&_&L6). split; auto.
Qed.
End stop.

(** ** Stop *)
Lemma rec_Stop_ok s :
  sound s → orderly_stop P sepc w isvol (rgs (st_tree s)) (osm s) n → sound (rec_Stop E s c).
Proof.
  intros [Ht Hl Hc] Hord. set (t0 := st_tree s) in *. set (m0 := osm s) in *.
  pose proof (td_inv _ _ _ _ _ _ _ Ht) as Hi. assert (closed t0) as Hcl by (by eapply rinv_closed).
  destruct (rec_Stop_spec P sepc w isvol E HE n s Hi) as (S1&S2&S3&S4).
  destruct (walk_mark E (eo_ord _ (re_ok _ _ _ _ _ HE)) (rstop_fn E c) (rstop_nodes E n)
    (going t0 m0) (past t0 m0) (λ _, True) t0 []) with (s := s) as (s'&Hw&HR&Hn&HM); try done.
  - intros x h1 Hg Hsn [Hx (r&->&Hr)] Hab. rewrite app_nil_l in *.
    destruct (visit t0 m0 Ht Hord x r Hg Hr Hx) as (R1&R2&R3&R4).
    { intros q Hq. apply Hab; [by apply prefix_nil|done]. }
    split_and!; try done. intros q Hq. by apply past_keep.
  - intros x [K1 K2 K3 K4 K5]. split; try done. eapply stopping_tree; [|eassumption]; done.
  - apply (twf_root _ _ _ (ri_wf _ _ _ _ _ Hi)).
  - split; try done.
    + split; [done|done|]. intros q. by left.
    + intros h _ _. left. done.
  - assert (rec_Stop E s c = s') as Hs' by (unfold rec_Stop; by rewrite Hw). rewrite Hs' in *.
    split; [|apply HR|apply HR].
    eapply (tidy_stop P sepc w isvol strict t0 _ m0 _ n Ht S1 S2 S4).
    + apply (sg_wp _ _ _ _ _ _ _ (go_st _ _ _ HR)).
    + apply HR.
    + intros h Hh Wh. destruct Wh as [v Hv] eqn:EW. clear EW.
      destruct (td_at P sepc w isvol strict Hinj _ _ _ _ Ht Hh Hv) as (V1&V2&V3&V4).
      destruct (stopped_wt t0 h s') as [W1 W2]. { split; apply S4, Hh. }
      rewrite W1. setoid_rewrite W2. destruct (go_each _ _ _ HR h Hh (ex_intro _ _ Hv)) as [(F1&F2&F3)|[_ F]]; [|exact F].
      assert (wt (st_tree s') h = wt t0 h) as Hwt by (unfold RecTidy.wt; by rewrite F1, F2).
      rewrite W1 in Hwt. rewrite Hwt, F3, Hv. split; [done|]. intros _. exists v.2. destruct v as [x k]. cbn [fst snd] in *. subst x.
      split; [done|]. intros K. by apply V4, (wrec1_wrec t0 m0).
Qed.
End env.

(** ** Orderly histories *)
Lemma sound_init : sound init_st.
Proof.
  assert (∀ q, wp_at (st_tree init_st) q = ∅) as Hw.
  { intros q. unfold wp_at. simpl. destruct (decide (q = [])) as [->|Hne]; [by rewrite lookup_singleton|by rewrite lookup_singleton_ne by done]. }
  split; [|by intros l1 c ok [|? ?] ?; destruct l1|done]. split.
  - apply rinv_init.
  - intros q. rewrite Hw. apply wpt_empty.
  - intros x v. unfold os_watches. cbn. by rewrite lookup_empty.
  - intros p q _ _ _. left. done.
  - intros h _ K. exfalso. apply K. unfold RecTidy.wt. by rewrite !Hw, wtotal_empty.
  - intros h k i _ K. rewrite Hw, wget_empty in K. by apply has_0 in K.
  - intros h q k i _ _ _ _ K. rewrite Hw, wget_empty in K. by apply has_0 in K.
Qed.
Lemma oexec_sound tr s : oexec P sepc w isvol tr s → rexec P sepc w isvol tr s ∧ all_ok tr ∧ sound s.
Proof.
  induction 1 as [|tr s E o s' r Hx (IH1&IH2&IH3) HE HO Hok Hor Hst].
  { split_and!; [constructor|constructor|apply sound_init]. }
  assert (r = ROk ∧ sound s') as [-> Hs'].
  { destruct o as [p isrec n e|n|]; [| |done].
    - cbn [rstep] in Hst. destruct Hok as (K1&K2&K3). destruct Hor as (O1&O2&O3).
      destruct (rec_Watch_ok P HP sepc w isvol strict E HE HO s p isrec n e IH3 K1 K2 K3) as (s1&Hs1&Hso&_).
      { done. } { intros _. done. } { intros q Q1 Q2 Q3. destruct (O3 q Q1 Q2 Q3) as [k Hk]. exists k.
        by rewrite (rexec_asked P HP sepc w isvol tr s IH1 IH2). }
      rewrite Hs1 in Hst. by injection Hst as <- <-.
    - cbn [rstep] in Hst. injection Hst as <- <-. split; [done|]. apply rec_Stop_ok; try done.
      intros q Q1 Q2. pose proof (rexec_asked P HP sepc w isvol tr s IH1 IH2) as Ha.
      assert (∀ q i, ev_at P (rgs (st_tree s)) q i ↔ ev_at P (asked P tr) q i) as A1.
      { intros q1 i. unfold ev_at. by setoid_rewrite Ha. }
      assert (∀ q i, ev_at P (without (rgs (st_tree s)) n) q i ↔ ev_at P (without (asked P tr) n) q i) as A2.
      { intros q1 i. unfold ev_at, without. split; intros (k&K1&K2); exists k; rewrite Ha in *; done. }
      assert (∀ q i, ev_below P (rgs (st_tree s)) q i ↔ ev_below P (asked P tr) q i) as A3.
      { intros q1 i. unfold ev_below. by setoid_rewrite A1. }
      assert (∀ q i, ev_below P (without (rgs (st_tree s)) n) q i ↔ ev_below P (without (asked P tr) n) q i) as A4.
      { intros q1 i. unfold ev_below. by setoid_rewrite A2. }
      destruct (Hor q Q1 Q2) as [K|[(i&I1&I2)|K]].
      + left. intros i. rewrite A3, A4. apply K.
      + right; left. exists i. by rewrite A1, A2.
      + right; right. intros i. rewrite A1, A4. apply K. }
  split_and!; [|apply Forall_app_2; [done|by constructor]|done].
  eapply rexec_step; try done. apply Hs'.
Qed.
End order.
