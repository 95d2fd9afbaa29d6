(** * StopNil: what Stop(nil) does to one watchpoint and to the trees *)
From Verif Require Import Base Event Watchpoint WatchpointFacts Paths PathsFacts Loop LoopFacts
  Node NodeFacts SpecTree WalkFacts RootFacts NonRec NonRecWp SpecNonRec NonRecFacts NonRecOps NonRecReg NonRecStep.
Local Open Scope N_scope.

(** ** One watchpoint *)
(** Del(nil, all) forgets the aggregate and computes it again. *)
Lemma wdel_nil P wp : (∀ e, wp !! KNil = Some e → u32 e) →
  wdel P wp KNil all32 =
    if bool_decide (delete KNil wp = ∅) then (∅, none) else (<[KNil := others wp .&^ omit P]> wp, strip_diff P 0 (others wp)).
Proof.
  intros Hu. unfold wdel. rewrite wget_insert.
  assert (wget wp KNil .&^ all32 = 0) as ->.
  { apply u32_all. unfold wget. destruct (wp !! KNil) eqn:E; [by eapply Hu|done]. }
  cbn [N.eqb]. rewrite delete_insert_delete. unfold wget. rewrite lookup_delete. cbn [default from_option id].
  rewrite delete_idemp. case_bool_decide as E.
  - rewrite E. done.
  - rewrite insert_delete_insert. done.
Qed.
Lemma wdel_nil_same P wp : agg_ok P wp → (∀ e, wp !! KNil = Some e → u32 e) → (wdel P wp KNil all32).1 = wp.
Proof.
  intros Ha Hu. rewrite wdel_nil by done. unfold agg_ok in Ha. case_bool_decide as E; cbn [fst].
  - symmetry. apply map_eq. intros k. rewrite lookup_empty. destruct (decide (k = KNil)) as [->|Hk]; [done|].
    rewrite <-(lookup_delete_ne wp KNil k) by done. by rewrite E.
  - by apply insert_id.
Qed.
Section wp.
Context (P : platform) (HP : platform_ok P).
Notation wp_ok := (wp_ok P).
Notation vis := (vis P).
Definition stop0 (m : N) (wp : watchpoint) : watchpoint := (wdelmin P m wp KNil all32).1.
(** What the OS is then asked for. *)
Definition set0 (m : N) (wp : watchpoint) : N :=
  match wp !! KRec with
  | None => total P wp
  | Some _ => if decide (vis (m .| others (delete KRec wp)) = 0) then 0 else vis (m .| others (delete KRec wp)) .| Create P
  end.
Lemma others_insert_rec m wp : others (<[KRec := m]> wp) = m .| others (delete KRec wp).
Proof. rewrite others_split_rec, wget_insert. by rewrite delete_insert_delete. Qed.
Lemma stop0_spec m wp : wp_ok wp → min_ok P m →
  wp_ok (stop0 m wp) ∧ (∀ n, stop0 m wp !! KUser n = wp !! KUser n) ∧
  (stop0 m wp !! KRec = (λ old, m .| (old .| Create P)) <$> wp !! KRec) ∧
  (wdelmin P m wp KNil all32).2 = if decide (set0 m wp = 0) then none else (0, set0 m wp).
Proof.
  intros Hwp [Hm32 Hm]. pose proof Hwp as [Hag H32 Hrec Huser]. unfold stop0, wdelmin, set0. destruct (wp !! KRec) as [old|] eqn:Eo.
  - set (wp1 := <[KRec := m]> wp). assert (∀ e, wp1 !! KNil = Some e → u32 e) as Hu1.
    { intros e. unfold wp1. rewrite lookup_insert_ne by done. apply H32. }
    assert (delete KNil wp1 ≠ ∅) as Hne.
    { intros E. assert (delete KNil wp1 !! KRec = None) as E' by (by rewrite E). unfold wp1 in E'.
      rewrite lookup_delete_ne in E' by done. by rewrite lookup_insert in E'. }
    rewrite (wdel_nil P wp1 Hu1), bool_decide_false by done.
    set (wp2 := <[KNil := others wp1 .&^ omit P]> wp1).
    assert (others wp1 = m .| others (delete KRec wp)) as Ho1 by apply others_insert_rec.
    set (x := m .| others (delete KRec wp)) in *.
    assert (strip_diff P 0 (others wp1) = if decide (vis x = 0) then none else (0, vis x)) as Hd.
    { unfold strip_diff. rewrite Ho1. fold x. change (0 .&^ internal P) with 0. fold (vis x).
      destruct (decide (vis x = 0)) as [->|Hz]; [done|]. destruct (N.eqb_spec 0 (vis x)); [by destruct Hz|done]. }
    remember (strip_diff P 0 (others wp1)) as d eqn:Ed. clear Ed. cbv zeta.
    assert (old .&^ (d.1 .&^ d.2) = old) as Hold.
    { rewrite Hd. destruct (decide (vis x = 0)); cbn [fst snd none]; by rewrite N.ldiff_0_l, N.ldiff_0_r. }
    rewrite Hold. specialize (Hrec old eq_refl).
    assert (old .| internal P =? internal P = false) as ->.
    { apply N.eqb_neq. intros E. pose proof (d_cr_int P HP) as Hci. apply (nz_incl_create P HP (Create P)); [bits|].
      assert (incl_ev (Create P) (internal P)) as Hi by (rewrite <-E; unfold recbits in Hrec; clear - Hrec; bits). clear - Hi Hci. bits. }
    destruct (wadd P wp2 KRec (old .| Create P)) as [wp3 d3] eqn:Ea. cbn [fst snd].
    assert (wp3 = (wadd P wp2 KRec (old .| Create P)).1) as -> by (by rewrite Ea).
    assert (∀ k, k ≠ KNil → wp2 !! k = wp1 !! k) as H2 by (intros k Hk; unfold wp2; by rewrite lookup_insert_ne).
    assert (wp2 !! KRec = Some m) as H2r by (rewrite H2 by done; apply lookup_insert).
    assert (agg_ok P wp2) as Hag2.
    { unfold agg_ok, wp2. rewrite lookup_insert, delete_insert_delete, bool_decide_false by done. do 2 f_equal. unfold others. by rewrite delete_insert_delete. }
    assert (u32 old) as Ho32 by (by eapply H32). pose proof (u32_create P HP) as Hc32.
    split_and!.
    + split.
      * by apply agg_ok_wadd.
      * apply (u32_from_agg P); [by apply agg_ok_wadd|]. intros k e Hk. rewrite wadd_get by done. case_bool_decide.
        -- intros [= <-]. rewrite (wget_Some _ _ _ H2r). apply u32_lor; [done|by apply u32_lor].
        -- rewrite H2 by done. unfold wp1. rewrite lookup_insert_ne by congruence. apply H32.
      * intros r. rewrite wadd_get by done. rewrite bool_decide_true by done. intros [= <-]. clear - Hrec. bits.
      * intros n e. rewrite wadd_get by done. rewrite bool_decide_false by done. rewrite H2 by done. unfold wp1. rewrite lookup_insert_ne by done. apply Huser.
    + intros n. rewrite wadd_get by done. rewrite bool_decide_false by done. rewrite H2 by done. unfold wp1. by rewrite lookup_insert_ne.
    + rewrite wadd_get by done. rewrite bool_decide_true by done. by rewrite (wget_Some _ _ _ H2r).
    + rewrite Hd. destruct (decide (vis x = 0)) as [E|E].
      * by rewrite decide_True.
      * assert (vis x .| Create P ≠ 0) as Hnz by (apply (nz_incl_create P HP); clear; bits).
        rewrite decide_False by done. unfold is_none. cbn [fst snd].
        assert ((0 =? 0) && (vis x =? 0) = false) as -> by (apply andb_false_iff; right; by apply N.eqb_neq).
        destruct (N.eqb_spec (vis x .| Create P) 0); done.
  - rewrite wdel_nil_same by (done || by apply H32). split_and!; [done|done|done|]. rewrite wdel_nil by apply H32.
    unfold total. case_bool_decide as E; cbn [snd].
    + unfold others. rewrite E, joinall_empty. done.
    + unfold strip_diff. change (0 .&^ internal P) with 0.
      destruct (decide (others wp .&^ internal P = 0)) as [->|Hz]; [done|]. destruct (N.eqb_spec 0 (others wp .&^ internal P)); [by destruct Hz|done].
Qed.
(** It contains what everybody asked for, and what the directory above asks for on behalf of
    recursive watches. *)
Lemma set0_user m wp n : incl_ev (vis (wget wp (KUser n))) (set0 m wp).
Proof.
  assert (incl_ev (wget wp (KUser n)) (others (delete KRec wp))) as H.
  { intros i Hi. apply has_others_get. exists (KUser n). split; [done|]. by rewrite wget_delete_ne. }
  unfold set0, NonRecWp.vis in *. destruct (wp !! KRec) as [old|] eqn:Eo.
  - destruct (decide ((m .| others (delete KRec wp)) .&^ internal P = 0)) as [E|E]; [|clear - H; bits].
    intros i [Hi Hn]%has_ldiff. rewrite <-E. apply has_ldiff. split; [|done]. apply has_lor. right. by apply H.
  - unfold total. rewrite others_split_rec. clear - H. bits.
Qed.
Lemma set0_min m wp : is_Some (wp !! KRec) → incl_ev (vis m) (set0 m wp).
Proof.
  intros [old Eo]. unfold set0, NonRecWp.vis. rewrite Eo. destruct (decide ((m .| others (delete KRec wp)) .&^ internal P = 0)) as [E|E]; [|clear; bits].
  intros i [Hi Hn]%has_ldiff. rewrite <-E. apply has_ldiff. split; [|done]. apply has_lor. by left.
Qed.
Lemma stop0_empty m : stop0 m ∅ = ∅.
Proof. unfold stop0, wdelmin. rewrite lookup_empty. by apply wdel_nil_same. Qed.
Lemma stop0_ok m wp : min_ok P m → wp_ok wp → wp_ok (stop0 m wp).
Proof. intros Hm Hwp. by apply stop0_spec. Qed.

(** ** The non-recursive tree *)
Context (sepc : ascii).
Notation nenv := (nenv P sepc).
Notation tinv := (tinv P sepc).
Lemma stop0_fn E s m h : nenv E → tinv (st_tree s) → min_ok P m →
  (stop_fn E KNil s m h).2 = CNil ∧
  st_tree (stop_fn E KNil s m h).1 = set_wp (st_tree s) h (stop0 m (wp_at (st_tree s) h)) ∧
  st_panic (stop_fn E KNil s m h).1 = st_panic s ∧
  st_log (stop_fn E KNil s m h).1 = st_log s ++
    (if decide (set0 m (wp_at (st_tree s) h) = 0) then []
     else let c := WRewatch (name_at (st_tree s) h) 0 (set0 m (wp_at (st_tree s) h)) in [(c, e_W E (st_log s) c)]).
Proof.
  intros HE Ht Hm. destruct (stop0_spec m (wp_at (st_tree s) h)) as (_&_&_&Hd); [by eapply tinv_wp_at|done|].
  unfold stop_fn, watchDelMin. rewrite (ne_plat _ _ _ HE). unfold stop0.
  destruct (wdelmin P m (wp_at (st_tree s) h) KNil all32) as [wp d]. cbn [fst snd] in *. subst d.
  assert (name_at (set_wp (st_tree s) h wp) h = name_at (st_tree s) h) as Hn by apply name_at_set_wp.
  destruct (decide (set0 m (wp_at (st_tree s) h) = 0)) as [E0|E0].
  - cbn. by rewrite app_nil_r.
  - unfold is_none. cbn [fst snd]. assert ((0 =? 0) && (set0 m (wp_at (st_tree s) h) =? 0) = false) as -> by (apply andb_false_iff; right; by apply N.eqb_neq).
    apply N.eqb_neq in E0 as E1. rewrite E1. unfold wcallf. cbn [fst snd st_tree st_panic st_log with_tree]. by rewrite Hn.
Qed.
Lemma stop0_rec m wp : wp_ok wp → min_ok P m → incl_ev (wget wp KRec) (wget (stop0 m wp) KRec).
Proof.
  intros Hwp Hm. destruct (stop0_spec m wp Hwp Hm) as (_&_&Hr&_). unfold wget. rewrite Hr.
  destruct (wp !! KRec); cbn [default from_option fmap option_fmap option_map id]; [|done]. clear. bits.
Qed.
(** What the directory above [q] asks for on behalf of recursive watches. *)
Definition above_rec (t : tree) (q : path) : N := if decide (q = []) then 0 else wget (wp_at t (removelast q)) KRec.
(** A call of Stop(nil): for what the watchpoint at [q] holds, and more. *)
Definition refresh (t : tree) (q : path) (x : N) : Prop :=
  is_Some (t !! q) ∧ wp_at t q ≠ ∅ ∧ x ≠ 0 ∧ disj_ev x (internal P) ∧ (∀ n, incl_ev (vis (wget (wp_at t q) (KUser n))) x) ∧
  (is_Some (wp_at t q !! KRec) → incl_ev (vis (above_rec t q) .| Create P) x).
Lemma set0_create m wp : is_Some (wp !! KRec) → set0 m wp ≠ 0 → incl_ev (Create P) (set0 m wp).
Proof.
  intros [old Eo]. unfold set0. rewrite Eo. destruct (decide (vis (m .| others (delete KRec wp)) = 0)); [done|]. intros _. clear. bits.
Qed.
Lemma set0_int m wp : disj_ev (set0 m wp) (internal P).
Proof.
  unfold set0, total, NonRecWp.vis. pose proof (d_cr_int P HP) as Hd.
  destruct (wp !! KRec); [destruct (decide ((m .| others (delete KRec wp)) .&^ internal P = 0))|]; clear - Hd; bits.
Qed.
Definition refreshes (s : st) (l : wlog) : Prop :=
  Forall (λ x, ∃ q e, x.1 = WRewatch (name_at (st_tree s) q) 0 e ∧ refresh (st_tree s) q e) l.
Lemma nr_StopNil_spec E s : nenv E → tinv (st_tree s) →
  let s' := nr_Stop E s KNil in
  tinv (st_tree s') ∧ same_nodes (st_tree s) (st_tree s') ∧ st_panic s' = st_panic s ∧
  (∀ p, name_at (st_tree s') p = name_at (st_tree s) p) ∧
  (∀ p n, ureg s' p n = ureg s p n) ∧
  ∃ l, st_log s' = st_log s ++ l ∧ refreshes s l ∧ ((∀ l c, e_W E l c = true) → Forall (λ x, x.2 = true) l).
Proof.
  intros HE Ht. cbn zeta. unfold nr_Stop.
  destruct (walkWatchpoint E (stop_fn E KNil) s []) as [s' r] eqn:Ew. cbn [fst].
  set (I := λ s1 (_ : list path), (∀ q, incl_ev (wget (wp_at (st_tree s) q) KRec) (wget (wp_at (st_tree s1) q) KRec)) ∧
    ∃ l, st_log s1 = st_log s ++ l ∧ refreshes s l ∧ ((∀ l c, e_W E l c = true) → Forall (λ x, x.2 = true) l)).
  destruct (ww_loop P sepc E HE (stop_fn E KNil) stop0 stop0_empty stop0_ok) with (I := I) (s := s) (h := @nil str) (s' := s') (r := r)
    as (_&H1&H2&H3&H4&H5&[_ H6]); try done.
  { intros s1 m h Ht1 _ Hm. destruct (stop0_fn E s1 m h HE Ht1 Hm) as (?&?&?&_). done. }
  { apply Ht. }
  { intros s1 m p rest s2 ks [Hgr (l&Hl&Hr&Hw)] Ht1 Hp1 Hm Hwp Hnm _ _ Hs2 _ Hmin. destruct Hs2 as [[-> _]|[-> Hne]].
    { split; [done|]. exists l. done. }
    destruct (stop0_fn E s1 m p HE Ht1 Hm) as (_&Htr&_&Hlog). assert (wp_ok (wp_at (st_tree s1) p)) as Hok by (by eapply tinv_wp_at).
    split.
    - intros q. cbn [ticked st_tree]. rewrite Htr, wp_at_set_wp. destruct (decide (q = p ∧ is_Some (st_tree s1 !! p))) as [[-> _]|_]; [|done].
      pose proof (Hgr p) as Hg. pose proof (stop0_rec m (wp_at (st_tree s1) p) Hok Hm) as Hg'. clear - Hg Hg'. bits.
    - cbn [ticked st_log]. rewrite Hlog, Hl. set (x := set0 m (wp_at (st_tree s1) p)) in *.
      destruct (decide (x = 0)) as [Hx|Hx]; [exists l; by rewrite app_nil_r|]. eexists. split; [by rewrite <-app_assoc|]. split.
      + apply Forall_app_2; [done|]. apply Forall_singleton. exists p, x. cbn [fst]. rewrite Hnm. split; [done|].
        assert (st_tree s !! p ≠ None) as Hps.
        { intros K. unfold wp_at in Hwp at 2. rewrite K in Hwp. by apply Hne. }
        unfold refresh. split_and!.
        * by apply not_eq_None_Some.
        * by rewrite <-Hwp.
        * done.
        * apply set0_int.
        * intros n. rewrite <-Hwp. apply set0_user.
        * rewrite <-Hwp. intros Hk. pose proof (set0_min m _ Hk) as K1. pose proof (set0_create m _ Hk Hx) as K2. fold x in K1, K2.
          assert (incl_ev (above_rec (st_tree s) p) m) as K3.
          { rewrite Hmin. unfold above_rec, minof. destruct (decide (p = [])) as [Hp0|Hp0]; [clear; bits|]. rewrite decide_False by done. apply Hgr. }
          unfold NonRecWp.vis in *. clear - K1 K2 K3. bits.
      + intros HW. apply Forall_app_2; [by apply Hw|]. apply Forall_singleton. apply HW. }
  { split; [by intros q i|]. exists []. rewrite app_nil_r. split_and!; [done|by constructor|by constructor]. }
  split_and!; try done. intros p n. unfold ureg, wget. destruct (decide (is_Some (st_tree s !! p))) as [Hp|Hp].
  - rewrite H5 by done. rewrite decide_True by apply prefix_nil.
    destruct (stop0_spec (minof [] (st_tree s') p) (wp_at (st_tree s) p)) as (_&Hu&_).
    + by eapply tinv_wp_at.
    + by apply (minof_ok P sepc).
    + by rewrite Hu.
  - assert (wp_at (st_tree s') p = ∅ ∧ wp_at (st_tree s) p = ∅) as [-> ->]; [|done].
    assert (st_tree s !! p = None) as Ep by (by apply eq_None_not_Some).
    assert (st_tree s' !! p = None) as Ep' by (apply eq_None_not_Some; intros K; apply Hp; by apply H2).
    unfold wp_at. by rewrite Ep, Ep'.
Qed.
End wp.
