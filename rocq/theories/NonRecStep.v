(** * NonRecStep: every operation keeps the invariant and changes the registrations
    as specified *)
From Verif Require Import Base Event Watchpoint WatchpointFacts Paths PathsFacts Loop LoopFacts
  Node NodeFacts SpecTree WalkFacts RootFacts NonRec NonRecWp SpecNonRec NonRecFacts NonRecOps NonRecReg.
Local Open Scope N_scope.

Section step.
Context (P : platform) (HP : platform_ok P) (sepc : ascii).
Notation render := (render sepc).
Notation nenv := (nenv P sepc).
Notation wp_ok := (wp_ok P).
Notation tinv := (tinv P sepc).
Notation recx := (recx P).
Notation nexec := (nexec P sepc).
Notation nop_ok := (nop_ok P sepc).
Notation nstep := (nstep sepc).

Definition ureg (s : st) (p : path) (n : positive) : N := wget (wp_at (st_tree s) p) (KUser n).

Lemma grow_ureg x s s' p n : grow x (st_tree s) (st_tree s') → ureg s' p n = ureg s p n.
Proof. intros H. unfold ureg, wget. by rewrite (gr_user _ _ _ H). Qed.

(** AddDir and Walk on their own. *)
Lemma adddir_grow E e s h s' r :
  nenv E → u32 e → incl_ev (recursive P) e → tinv (st_tree s) → is_Some (st_tree s !! h) →
  nd_adddir E (recFunc E e) s h = (s', r) →
  tinv (st_tree s') ∧ grow (recx e) (st_tree s) (st_tree s') ∧ st_panic s' = st_panic s.
Proof.
  intros HE H32 Hr Ht Hh Hl.
  destruct (adddir_loop P HP sepc E HE e (λ _ _, True) s h s' r) as (?&?&?&_); done.
Qed.
Lemma walk_grow E e s h s' r :
  nenv E → u32 e → incl_ev (recursive P) e → tinv (st_tree s) → is_Some (st_tree s !! h) →
  nd_walk E (recFunc E e) s h = (s', r) →
  r = LDone ∧ tinv (st_tree s') ∧ grow (recx e) (st_tree s) (st_tree s') ∧ st_panic s' = st_panic s ∧
  same_nodes (st_tree s) (st_tree s').
Proof.
  intros HE H32 Hr Ht Hh Hl.
  destruct (walk_loop P HP sepc E HE e (λ _ _, True) s h s' r) as (?&?&?&?&?&_); done.
Qed.

(** Recursive Watch, all cases. *)
Lemma watchrec_spec E s h n e s' r :
  nenv E → tinv (st_tree s) → is_Some (st_tree s !! h) →
  u32 e → incl_ev (recursive P) e → disj_ev e (omit P) →
  nr_watchrec E s h (KUser n) e = (s', r) →
  tinv (st_tree s') ∧ st_panic s' = st_panic s ∧
  ((r ≠ ROk ∧ wp_at (st_tree s) h !! KRec = None ∧ grow (recx e) (st_tree s) (st_tree s') ∧
      ∃ r', r' ≠ LDone ∧ nd_adddir E (recFunc E e) s h = (s', r')) ∨
   (r = ROk ∧ ∃ s1 wp', s' = with_tree s1 (set_wp (st_tree s1) h wp') ∧ tinv (st_tree s1) ∧
      is_Some (st_tree s1 !! h) ∧ grow (recx e) (st_tree s) (st_tree s1) ∧
      regd P n e (wp_at (st_tree s1) h) wp' ∧
     (s1 = s ∧ incl_ev (vis P (recx e)) (wget (wp_at (st_tree s) h) KRec)
      ∨ wp_at (st_tree s) h !! KRec = None ∧ nd_adddir E (recFunc E e) s h = (s1, LDone)
      ∨ is_Some (wp_at (st_tree s) h !! KRec) ∧ nd_walk E (recFunc E e) s h = (s1, LDone)))).
Proof.
  intros HE Ht Hh H32 Hrec Hom Hw.
  destruct (watchrec_cases P HP sepc E s h n e s' r) as [(Hr&Hn&r'&Hr'&Ha)|(->&s1&wp'&->&Hrg&Hc)]; try done.
  - apply HE.
  - intros s1 Ha. destruct (adddir_grow E e s h s1 LDone) as (?&Hg&?); try done. split; [done|]. by apply (gr_nodes _ _ _ Hg).
  - intros s1 r1 Ha. destruct (walk_grow E e s h s1 r1) as (?&?&Hg&?); try done. split_and!; [done|done|]. by apply (gr_nodes _ _ _ Hg).
  - destruct (adddir_grow E e s h s' r') as (?&?&?); try done. split_and!; [done|done|]. left. eauto 10.
  - assert (tinv (st_tree s1) ∧ grow (recx e) (st_tree s) (st_tree s1) ∧ st_panic s1 = st_panic s) as (Ht1&Hg1&Hp1).
    { destruct Hc as [[-> _]|[[_ Ha]|[_ Ha]]].
      - split_and!; [done|apply grow_refl|done].
      - by eapply adddir_grow.
      - destruct (walk_grow E e s h s1 LDone) as (?&?&?&?&?); done. }
    split_and!.
    + apply tinv_set_wp; [done|apply Hrg].
    + done.
    + right. split; [done|]. exists s1, wp'. split_and!; try done. by apply (gr_nodes _ _ _ Hg1).
Qed.

(** Stop *)
Definition stopf (n : positive) (m : N) (wp : watchpoint) : watchpoint := (wdelmin P m wp (KUser n) all32).1.
Lemma stopf_empty n m : stopf n m ∅ = ∅.
Proof. unfold stopf, wdelmin. rewrite lookup_empty. apply map_eq. intros k.
  destruct (decide (k = KNil)) as [->|Hk].
  - pose proof (wdel_agg P ∅ (KUser n) all32 ltac:(done)) as Ha. unfold agg_ok in Ha. rewrite Ha.
    rewrite bool_decide_true; [done|]. apply map_eq. intros k'. rewrite lookup_empty.
    destruct (decide (k' = KNil)) as [->|Hk']; [by rewrite lookup_delete|].
    rewrite lookup_delete_ne, wdel_get by done. unfold wget. rewrite lookup_empty. by destruct (bool_decide (k' = KUser n)).
  - rewrite wdel_get by done. unfold wget. rewrite lookup_empty. by destruct (bool_decide (k = KUser n)).
Qed.
Lemma stop_tree E n s m h :
  nenv E → 
  (stop_fn E (KUser n) s m h).2 = CNil ∧
  st_tree (stop_fn E (KUser n) s m h).1 = set_wp (st_tree s) h (stopf n m (wp_at (st_tree s) h)) ∧
  st_panic (stop_fn E (KUser n) s m h).1 = st_panic s.
Proof.
  intros HE. unfold stop_fn, watchDelMin. rewrite (ne_plat _ _ _ HE). unfold stopf.
  destruct (wdelmin P m (wp_at (st_tree s) h) (KUser n) all32) as [wp d]. cbn [fst snd].
  destruct (is_none d); [done|]. destruct (N.eqb_spec d.2 0); done.
Qed.
Lemma stopf_ok n m wp : min_ok P m → wp_ok wp → wp_ok (stopf n m wp).
Proof. intros Hm Hwp. by apply wdelmin_spec. Qed.

Lemma nr_Stop_spec E n s :
  nenv E → tinv (st_tree s) →
  let s' := nr_Stop E s (KUser n) in
  tinv (st_tree s') ∧ same_nodes (st_tree s) (st_tree s') ∧ st_panic s' = st_panic s ∧
  (∀ p, name_at (st_tree s') p = name_at (st_tree s) p) ∧
  (∀ p, wp_at (st_tree s') p = stopf n (minof [] (st_tree s') p) (wp_at (st_tree s) p)).
Proof.
  intros HE Ht. cbn zeta. unfold nr_Stop.
  destruct (walkWatchpoint E (stop_fn E (KUser n)) s []) as [s' r] eqn:Ew. cbn [fst].
  destruct (ww_loop P sepc E HE (stop_fn E (KUser n)) (stopf n) (stopf_empty n) (stopf_ok n)
    (λ s m h _ _ _, stop_tree E n s m h HE) (λ _ _, True) s [] s' r) as (_&H1&H2&H3&H4&H5&_); try done.
  { apply Ht. }
  split_and!; try done. intros p. destruct (decide (is_Some (st_tree s !! p))) as [Hp|Hp].
  - rewrite H5 by done. by rewrite decide_True by apply prefix_nil.
  - assert (wp_at (st_tree s) p = ∅) as ->.
    { unfold wp_at. destruct (st_tree s !! p) eqn:Ep; [|done]. destruct Hp; eauto. }
    rewrite stopf_empty. unfold wp_at. destruct (st_tree s' !! p) eqn:Ep; [|done]. destruct Hp. apply H2. eauto.
Qed.

(** Removal *)
Lemma wp_size_le1 wp : wp_ok wp → (size wp ≤ 1)%nat → wp = ∅.
Proof.
  intros Hwp Hs. pose proof (wo_agg _ _ Hwp) as Ha. unfold agg_ok in Ha. case_bool_decide as Ed.
  - apply map_eq. intros k. rewrite lookup_empty. destruct (decide (k = KNil)) as [->|Hk]; [done|].
    rewrite <-(lookup_delete_ne wp KNil k) by done. by rewrite Ed.
  - exfalso. rewrite <-(insert_delete wp KNil _ Ha) in Hs.
    rewrite map_size_insert_None in Hs by apply lookup_delete.
    apply Ed. apply map_size_empty_inv. lia.
Qed.
Lemma tinv_del E t p : nenv E → tinv t → upath sepc p → tinv (r_del (e_sep E) (e_vol E) t (render p)).1.
Proof.
  intros HE Ht Hp. pose proof (upath_spells P sepc E p HE Hp) as Hsp. rewrite (ne_sep _ _ _ HE).
  pose proof (tree_wf_del sepc (e_vol E) false t p (render p) (ti_wf _ _ _ Ht) Hsp) as Hwf.
  assert (∀ q nd, (r_del sepc (e_vol E) t (render p)).1 !! q = Some nd → t !! q = Some nd) as Hsub.
  { intros q nd Hq. destruct (t !! q) as [nd'|] eqn:Eq.
    2:{ rewrite r_del_None in Hq by done. done. }
    destruct (t !! p) eqn:Ep.
    - destruct (r_del_spec sepc (e_vol E) false t p (render p) q (ti_wf _ _ _ Ht) Hsp) as (_&H1&H2); [eauto|eauto|].
      destruct (decide ((r_del sepc (e_vol E) t (render p)).1 !! q = None)) as [Hn|Hn]; [congruence|].
      rewrite H2 in Hq by auto. by rewrite Eq in Hq.
    - erewrite r_del_missing in Hq by (done || apply Ht). cbn [fst] in Hq. by rewrite Eq in Hq. }
  split; [done| |].
  - intros q [nd Hq]. eapply ti_comps; [done|]. eauto.
  - intros q nd Hq. eapply ti_wp; [done|]. eauto.
Qed.

Lemma wp_at_del E t p q :
  nenv E → tinv t → upath sepc p →
  wp_at (r_del (e_sep E) (e_vol E) t (render p)).1 q =
    if decide (p `prefix_of` q) then ∅ else wp_at t q.
Proof.
  intros HE Ht Hp. pose proof (upath_spells P sepc E p HE Hp) as Hsp. rewrite (ne_sep _ _ _ HE).
  destruct (t !! q) as [nd|] eqn:Eq.
  2:{ unfold wp_at. rewrite r_del_None by done. rewrite Eq. by destruct (decide (p `prefix_of` q)). }
  destruct (t !! p) as [ndp|] eqn:Ep.
  2:{ erewrite r_del_missing by (done || apply Ht). destruct (decide (p `prefix_of` q)) as [Hpq|]; [|done].
      exfalso. destruct (closed_prefix t p q (tinv_closed _ _ _ Ht) Hpq); [eauto|congruence]. }
  destruct (r_del_spec sepc (e_vol E) false t p (render p) q (ti_wf _ _ _ Ht) Hsp) as (_&H1&H2); [eauto|eauto|].
  destruct (decide (p `prefix_of` q)) as [Hpq|Hpq].
  - unfold wp_at. rewrite H1; [done|]. by left.
  - destruct ((r_del sepc (e_vol E) t (render p)).1 !! q) as [nd'|] eqn:Er.
    + unfold wp_at. rewrite Er. rewrite <-H2; [done|]. intros Hg. by apply H1 in Hg.
    + unfold wp_at at 1. rewrite Er. symmetry.
      assert (¬ ¬ (wp_at t q = ∅)) as Hnn.
      { intros Hw. assert (¬ del_gone t (start false p) p q) as Hng.
        { intros [?|(Ha&Hb&Hc&Hd)]; [done|]. destruct (Hd q) as [?|[_ Hsz]]; [eauto|done|done|].
          apply Hw. apply wp_size_le1; [by eapply tinv_wp_at|done]. }
        specialize (H2 Hng). congruence. }
      destruct (decide (wp_at t q = ∅)); [done|]. by destruct Hnn.
Qed.

Lemma internal_remove_spec E s p :
  nenv E → tinv (st_tree s) → gpath sepc p →
  let s' := nr_internal E s (EI (Remove P) (render p) (Some true) fTypeDirectory) in
  (s' = s ∧ st_tree s !! p = None) ∨
  ∃ s1, is_Some (st_tree s !! p) ∧
    walkWatchpoint E (λ s _ h, ((wcallf E s (WUnwatch (name_at (st_tree s) h))).1, CNil)) s p = (s1, LDone) ∧
    st_tree s1 = st_tree s ∧ st_panic s1 = st_panic s ∧
    s' = with_tree s1 (r_del (e_sep E) (e_vol E) (st_tree s) (render p)).1.
Proof.
  intros HE Ht Hg. cbn zeta. pose proof (gpath_upath P HP sepc p Hg) as Hu. unfold nr_internal.
  cbn [ei_event ei_path]. rewrite (ne_plat _ _ _ HE), N.eqb_refl.
  assert (r_get (e_sep E) (e_vol E) (st_tree s) (render p) = if decide (is_Some (st_tree s !! p)) then Some p else None) as ->.
  { rewrite (ne_sep _ _ _ HE). apply (r_get_spec sepc (e_vol E) false); [apply Ht|by apply (upath_spells P)]. }
  destruct (decide (is_Some (st_tree s !! p))) as [Hp|Hp].
  2:{ left. split; [done|]. destruct (st_tree s !! p) eqn:Ep; [|done]. destruct Hp; eauto. }
  right. set (fn := λ (s : st) (_ : N) (h : path), ((wcallf E s (WUnwatch (name_at (st_tree s) h))).1, CNil)).
  destruct (walkWatchpoint E fn s p) as [s1 r] eqn:Ew.
  destruct (ww_loop P sepc E HE fn (λ _ wp, wp) ltac:(done) ltac:(done)) with (I := λ s2 (_ : list path), st_tree s2 = st_tree s)
    (s := s) (h := p) (s' := s1) (r := r) as (->&H1&H2&H3&H4&H5&H6); try done.
  - intros s2 m h Ht2 Hh2 _. split_and!; [done| |done]. unfold fn. cbn [fst]. unfold wcallf. cbn [fst st_tree].
    symmetry. apply set_wp_same. intros nd Hnd. destruct (ti_wp _ _ _ Ht2 _ _ Hnd) as (wp&?&?). eauto.
  - intros s2 m q rest s3 ks Hs2 _ _ _ _ _ _ _ [[-> _]|[-> _]] _; done.
  - exists s1. split_and!; try done. by rewrite H6.
Qed.

(** ** One operation *)
Lemma nstep_spec E s o s' r :
  nenv E → nop_ok o → tinv (st_tree s) → nstep E s o = (s', r) →
  tinv (st_tree s') ∧ st_panic s' = st_panic s ∧ reg_after P o r (ureg s) (ureg s').
Proof.
  intros HE Ho Ht Hs. destruct o as [p isrec n e|n|ev p]; simpl in Ho, Hs.
  - destruct Ho as (Hu&H32&Hue).
    assert (disj_ev e (omit P)) as Hom by (clear - Hue; unfold user_ev, internal in *; bits).
    unfold nr_Watch in Hs.
    destruct (nr_add_spec P sepc E (st_tree s) p HE Ht Hu) as (t1&Hadd&Ht1&Hp1&Hw1&Hl1).
    rewrite Hadd in Hs.
    assert (∀ q m, ureg (with_tree s t1) q m = ureg s q m) as Hur by (intros; unfold ureg; cbn [st_tree with_tree]; by rewrite Hw1).
    destruct isrec.
    + rewrite (ne_plat _ _ _ HE) in Hs.
      destruct (watchrec_spec E (with_tree s t1) p n (e .| recursive P) s' r) as (H1&H2&H3); try done.
      * apply u32_lor; [done|by apply u32_recursive].
      * clear. bits.
      * pose proof (d_re_om P HP) as Hd. clear - Hd Hom. bits.
      * split_and!; [done|done|]. simpl. destruct H3 as [(Hr&_&Hg&_)|(->&s1&wp'&->&Ht2&Hh2&Hg&Hrg&_)].
        -- split; [|destruct r; [done| |]]; [intros q m _|..]; rewrite <-Hur; by eapply grow_ureg.
        -- assert (∀ q m, ureg s1 q m = ureg s q m) as Hu1 by (intros; rewrite <-Hur; by eapply grow_ureg).
           split.
           ++ intros q m Hne. rewrite <-Hu1. unfold ureg, wget. cbn [st_tree with_tree].
              rewrite wp_at_set_wp. destruct (decide (q = p ∧ is_Some (st_tree s1 !! p))) as [[-> _]|_]; [|done].
              destruct (decide (m = n)) as [->|Hmn]; [done|].
              rewrite (rg_other _ _ _ _ _ Hrg); [done|done|done|congruence].
           ++ rewrite <-Hu1. unfold ureg at 1. cbn [st_tree with_tree]. rewrite wp_at_set_wp, decide_True by done.
              rewrite (wget_Some _ _ _ (rg_user _ _ _ _ _ Hrg)). unfold ureg. clear. bits.
    + destruct (nr_watch_cases P sepc E (with_tree s t1) p n e s' r) as [(->&Hok&->)|(->&c&wp'&Hc&HW&->&Hok&Hoth&Hn&_)]; try done.
      * apply HE.
      * rewrite upd_tree, upd_panic. split_and!; [by apply tinv_set_wp|done|]. simpl.
        cbn [st_tree with_tree] in *.
        assert (∀ q m, ureg (upd E (with_tree s t1) p (wadd P (wp_at t1 p) (KUser n) e).1 (wadd P (wp_at t1 p) (KUser n) e).2) q m
          = if decide (q = p ∧ m = n) then ureg s q m .| e else ureg s q m) as Hx.
        { intros q m. unfold ureg. rewrite upd_tree. cbn [st_tree with_tree]. rewrite wp_at_set_wp.
          destruct (decide (q = p ∧ is_Some (t1 !! p))) as [[-> _]|Hd].
          - rewrite wadd_wget by done. rewrite Hw1.
            destruct (decide (m = n)) as [->|Hmn].
            + rewrite bool_decide_true by done. by rewrite decide_True by done.
            + rewrite bool_decide_false by congruence. by rewrite decide_False by naive_solver.
          - rewrite decide_False by naive_solver. by rewrite Hw1. }
        split.
        -- intros q m Hne. rewrite Hx. rewrite decide_False; [done|]. intros [-> ->]. done.
        -- rewrite Hx, decide_True by done. clear. bits.
      * cbn [st_tree st_panic with_tree] in *. split_and!; [by apply tinv_set_wp|done|]. simpl.
        assert (∀ q m, (q, m) ≠ (p, n) → ureg (St (set_wp t1 p wp') (st_log s ++ [(c, false)]) (st_tick s) (st_panic s)) q m = ureg s q m) as Hx.
        { intros q m Hne. unfold ureg, wget. cbn [st_tree]. rewrite wp_at_set_wp.
          destruct (decide (q = p ∧ is_Some (t1 !! p))) as [[-> _]|Hd]; [|by rewrite Hw1].
          rewrite Hoth; [by rewrite Hw1|done|]. intros [= ->]. done. }
        split; [exact Hx|].
        unfold ureg. cbn [st_tree]. rewrite wp_at_set_wp, decide_True by done. rewrite Hn, Hw1.
        assert (incl_ev (wget (wp_at (st_tree s) p) (KUser n) .&^ internal P) (total P (wp_at (st_tree s) p))) as Hi.
        { unfold total. intros i Hi. apply has_ldiff in Hi as [Hi1 Hi2]. apply has_ldiff. split; [|done].
          apply has_others_get. by exists (KUser n). }
        set (T := total P (wp_at (st_tree s) p)) in *. set (W := wget (wp_at (st_tree s) p) (KUser n)) in *.
        split; [clear - Hi; bits|clear; bits].
  - injection Hs as <- <-.
    destruct (nr_Stop_spec E n s HE Ht) as (H1&H2&H3&H4&H5). split_and!; [done|done|]. simpl.
    intros q m. unfold ureg, wget. rewrite H5.
    destruct (wdelmin_spec P HP (minof [] (st_tree (nr_Stop E s (KUser n))) q) (wp_at (st_tree s) q) n) as (_&Hk&_).
    + by eapply tinv_wp_at.
    + by eapply minof_ok.
    + unfold stopf. rewrite Hk by done. destruct (decide (m = n)) as [->|Hmn].
      * by rewrite bool_decide_true.
      * by rewrite bool_decide_false by congruence.
  - injection Hs as <- <-. pose proof (gpath_upath P HP sepc p Ho) as Hu.
    destruct (decide (ev = Remove P)) as [->|Hev].
    + destruct (internal_remove_spec E s p HE Ht Ho) as [[-> Hn]|(s1&Hp&Hw&Htr&Hpn&->)].
      * split_and!; [done|done|]. simpl. intros q m. destruct (decide _) as [[_ Hpq]|_]; [|done].
        unfold ureg, wp_at. destruct (st_tree s !! q) eqn:Eq; [|done].
        destruct (closed_prefix (st_tree s) p q (tinv_closed _ _ _ Ht) Hpq); [eauto|congruence].
      * cbn [st_tree with_tree st_panic]. split_and!; [by apply tinv_del|done|]. simpl. intros q m.
        unfold ureg. cbn [st_tree with_tree]. rewrite wp_at_del by done.
        destruct (decide (p `prefix_of` q)) as [Hpq|Hpq].
        -- by rewrite decide_True by done.
        -- rewrite decide_False by naive_solver. done.
    + assert (reg_after P (NEvent ev p) ROk (ureg s) (ureg s)) as Hsame.
      { simpl. intros q m. by rewrite decide_False by naive_solver. }
      destruct (internal_create_cases P HP sepc E s ev p HE Ht Ho Hev)
        as [[-> _]|(q&t1&e&r&Hq&Hqe&_&Ht1&Hp1&Hw1&_&_&Ha)]; [done|].
      set (s' := nr_internal E s (EI ev (render p) (Some true) fTypeDirectory)) in *.
      assert (wp_ok (wp_at (st_tree s) q)) as Hwq by (by eapply tinv_wp_at).
      destruct (adddir_grow E e (with_tree s t1) p s' r) as (H1&H2&H3); try done.
      * by eapply wo_u32.
      * pose proof (wo_rec _ _ Hwq _ Hqe) as Hx. unfold recbits in Hx. clear - Hx. bits.
      * split_and!; [done|done|]. simpl. intros x m. rewrite decide_False by naive_solver.
        etrans; [by eapply grow_ureg|]. unfold ureg. cbn [st_tree with_tree]. by rewrite Hw1.
Qed.

Lemma nexec_inv tr s : nexec tr s → tinv (st_tree s) ∧ st_panic s = false.
Proof.
  induction 1 as [|tr s E o s' r Hx [IH1 IH2] HE Ho Hs]; [split; [by apply tinv_init|done]|].
  destruct (nstep_spec E s o s' r) as (H1&H2&H3); [done..|]. by rewrite H2.
Qed.
Lemma nexec_regs tr s : nexec tr s → nregs P tr (ureg s).
Proof.
  induction 1 as [|tr s E o s' r Hx IH HE Ho Hs].
  - apply nregs_init. intros p n. unfold ureg, wp_at. simpl.
    destruct (decide (p = [])) as [->|Hp]; [by rewrite lookup_singleton|by rewrite lookup_singleton_ne].
  - destruct (nexec_inv _ _ Hx) as [Ht _]. eapply nregs_step; [exact IH|].
    by destruct (nstep_spec E s o s' r) as (H1&H2&H3).
Qed.
End step.
