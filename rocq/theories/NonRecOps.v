(** * NonRecOps: what the operations of the non-recursive tree do to the nodes *)
From Verif Require Import Base Event Watchpoint WatchpointFacts Paths PathsFacts Loop LoopFacts
  Node NodeFacts SpecTree WalkFacts RootFacts NonRec NonRecWp SpecNonRec NonRecFacts.
Local Open Scope N_scope.

Section ops.
Context (P : platform) (HP : platform_ok P) (sepc : ascii).
Notation render := (render sepc).
Notation nenv := (nenv P sepc).
Notation wp_ok := (wp_ok P).
Notation recbits := (recbits P).
Notation tinv := (tinv P sepc).
Notation recx := (recx P).

(** ** Walk with recFunc *)
Lemma recFunc_same_nodes E e s h : same_nodes (st_tree s) (st_tree (recFunc E e s h).1).
Proof.
  unfold recFunc, node_wadd. destruct (wadd _ _ _ _) as [wp d].
  assert (same_nodes (st_tree s) (set_wp (st_tree s) h wp)) by apply same_nodes_set_wp.
  destruct (st_tree s !! h ≫= nwatch); destruct (is_none d); try done;
    destruct (d.2 =? 0); try done; destruct (d.1 =? 0); done.
Qed.

Lemma walk_loop E (HE : nenv E) e (I : st → list path → Prop) s h s' r :
  u32 e → incl_ev (recursive P) e →
  tinv (st_tree s) → is_Some (st_tree s !! h) →
  (∀ s h rest ks, I s (h :: rest) → tinv (st_tree s) → is_Some (st_tree s !! h) →
     grow (recx e) (st_tree s) (st_tree (recFunc E e s h).1) →
     let s1 := (recFunc E e s h).1 in
     (∀ k, k ∈ ks ↔ is_Some (st_tree s1 !! (h ++ [k])) ∧ k ≠ []) →
     I (ticked s1) (((λ k, h ++ [k]) <$> ks) ++ rest)) →
  I s [h] →
  nd_walk E (recFunc E e) s h = (s', r) →
  r = LDone ∧ tinv (st_tree s') ∧ grow (recx e) (st_tree s) (st_tree s') ∧ st_panic s' = st_panic s ∧
  same_nodes (st_tree s) (st_tree s') ∧ I s' [].
Proof.
  intros H32 Hrec Ht Hh HI1 HI0 Hl.
  pose proof (nd_walk_terminates E (eo_ord _ (ne_ok _ _ _ HE)) (recFunc E e) (recFunc_same_nodes E e)
    s h (tinv_closed _ _ _ Ht) Hh) as Hterm. rewrite Hl in Hterm. simpl in Hterm.
  unfold nd_walk in Hl.
  set (Inv := λ s1 stack, tinv (st_tree s1) ∧ grow (recx e) (st_tree s) (st_tree s1) ∧
    st_panic s1 = st_panic s ∧ same_nodes (st_tree s) (st_tree s1) ∧
    (∀ p, p ∈ stack → is_Some (st_tree s1 !! p)) ∧ I s1 stack).
  assert (∀ s1 h1, tinv (st_tree s1) → is_Some (st_tree s1 !! h1) →
    tinv (st_tree (recFunc E e s1 h1).1) ∧ grow (recx e) (st_tree s1) (st_tree (recFunc E e s1 h1).1) ∧
    st_panic (recFunc E e s1 h1).1 = st_panic s1 ∧ recFunc E e s1 h1 = ((recFunc E e s1 h1).1, CNil)) as Hrf.
  { intros s1 h1 Ht1 Hh1. rewrite (recFunc_spec P sepc) by (done || apply HE). cbn [fst].
    rewrite upd_tree, upd_panic. split_and!; [|by apply grow_set_rec|done|done].
    apply tinv_set_wp; [done|]. apply wp_ok_wadd_rec; [done|done|done|]. by eapply tinv_wp_at. }
  eapply (loop_ind _ Inv (λ s', False)) in Hl.
  - destruct r; unfold Inv in Hl; naive_solver.
  - clear Hl. intros s1 x rest s2 l (Ht1&Hg&Hp&Hsn&Hst&HI) Hs.
    assert (is_Some (st_tree s1 !! x)) as Hx by (apply Hst; left).
    destruct (Hrf s1 x Ht1 Hx) as (Ht2&Hg2&Hp2&Heq). unfold walk_step in Hs.
    rewrite Heq in Hs. set (s1' := (recFunc E e s1 x).1) in *.
    unfold range_children in Hs. injection Hs as <- <-.
    assert (∀ k, k ∈ filter (λ k, k ≠ []) (e_ord E (st_tick s1') (children (st_tree s1') x)) ↔
      is_Some (st_tree s1' !! (x ++ [k])) ∧ k ≠ []) as Hks.
    { intros k. rewrite elem_of_list_filter, (eo_ord _ (ne_ok _ _ _ HE)), elem_of_children. naive_solver. }
    unfold Inv. cbn [st_tree ticked st_panic]. split_and!.
    + done.
    + by eapply grow_trans.
    + by rewrite Hp2.
    + eapply same_nodes_trans; [done|]. apply recFunc_same_nodes.
    + intros p [(k&->&Hk)%elem_of_list_fmap|Hin]%elem_of_app.
      * by apply Hks.
      * apply (gr_nodes _ _ _ Hg2). apply Hst. by right.
    + by apply HI1.
  - clear Hl. intros s1 x rest s2 (Ht1&Hg&Hp&Hsn&Hst&HI) Hs.
    assert (is_Some (st_tree s1 !! x)) as Hx by (apply Hst; left).
    destruct (Hrf s1 x Ht1 Hx) as (Ht2&Hg2&Hp2&Heq). unfold walk_step in Hs.
    rewrite Heq in Hs. done.
  - unfold Inv. split_and!; [done|apply grow_refl|done|done| |done].
    by intros p ->%elem_of_list_singleton.
Qed.

(** ** Recursive Watch *)
(** What the final bookkeeping does to the watchpoint of the watched node. *)
Record regd (n : positive) (e : N) (wp wp' : watchpoint) : Prop := {
  rg_ok : wp_ok wp';
  rg_rec : wp' !! KRec = Some (wget wp KRec .| recx e);
  rg_user : wp' !! KUser n = Some (wget wp (KUser n) .| e);
  rg_other : ∀ k, k ≠ KNil → k ≠ KRec → k ≠ KUser n → wp' !! k = wp !! k;
  rg_total : incl_ev (vis P (recx e)) (wget wp KRec) → total P wp' = total P wp;
}.

Lemma watchrec_cases E s h n e s' r :
  e_plat E = P → tinv (st_tree s) → is_Some (st_tree s !! h) →
  u32 e → incl_ev (recursive P) e → disj_ev e (omit P) →
  (∀ s1, nd_adddir E (recFunc E e) s h = (s1, LDone) → tinv (st_tree s1) ∧ is_Some (st_tree s1 !! h)) →
  (∀ s1 r, nd_walk E (recFunc E e) s h = (s1, r) → r = LDone ∧ tinv (st_tree s1) ∧ is_Some (st_tree s1 !! h)) →
  nr_watchrec E s h (KUser n) e = (s', r) →
  (r ≠ ROk ∧ wp_at (st_tree s) h !! KRec = None ∧
     ∃ r', r' ≠ LDone ∧ nd_adddir E (recFunc E e) s h = (s', r')) ∨
  (r = ROk ∧ ∃ s1 wp', s' = with_tree s1 (set_wp (st_tree s1) h wp') ∧ regd n e (wp_at (st_tree s1) h) wp' ∧
     (s1 = s ∧ incl_ev (vis P (recx e)) (wget (wp_at (st_tree s) h) KRec)
      ∨ wp_at (st_tree s) h !! KRec = None ∧ nd_adddir E (recFunc E e) s h = (s1, LDone)
      ∨ is_Some (wp_at (st_tree s) h !! KRec) ∧ nd_walk E (recFunc E e) s h = (s1, LDone))).
Proof.
  intros HE Ht Hh H32 Hrec Hom Hadd Hwalk. unfold nr_watchrec. rewrite HE.
  set (wp0 := wp_at (st_tree s) h).
  assert (wp_ok wp0) as Hwp0 by (by eapply tinv_wp_at).
  assert (e .| Create P .| omit P = recx e) as Hx1 by (unfold NonRecFacts.recx; clear; bits).
  assert (e .| omit P .| Create P = recx e) as Hx2 by done.
  assert ((e .| Create P) .&^ internal P = vis P (recx e)) as Hvis.
  { unfold vis, NonRecFacts.recx, internal. clear. bits. }
  assert (incl_ev (Create P) (vis P (recx e))) as Hcr.
  { unfold vis, NonRecFacts.recx. pose proof (d_cr_int P HP) as Hci. clear - Hci. bits. }
  assert (e .& recursive P ≠ 0) as Hrn.
  { intros Hz. pose proof (nz_re P HP) as Hnz. apply Hnz. clear - Hz Hrec. bits. }
  (* the bookkeeping *)
  assert (∀ s1, tinv (st_tree s1) → is_Some (st_tree s1 !! h) →
    ∃ wp', (watchAdd E s1 h (KUser n) e).1 = with_tree s1 (set_wp (st_tree s1) h wp') ∧
      regd n e (wp_at (st_tree s1) h) wp') as Hbook.
  { intros s1 Ht1 Hh1. unfold watchAdd. rewrite HE. rewrite (proj2 (N.eqb_neq _ _) Hrn). simpl negb. cbv iota.
    rewrite Hx1. rewrite (node_wadd_spec P sepc) by done. set (wp1 := wp_at (st_tree s1) h).
    assert (wp_ok wp1) as Hok1 by (by eapply tinv_wp_at).
    assert (wp_ok (wadd P wp1 KRec (recx e)).1) as Hok2 by (by apply wp_ok_wadd_rec).
    rewrite (node_wadd_spec P sepc); [|done|by apply tinv_set_wp|by apply set_wp_is_Some].
    cbn [fst st_tree with_tree]. rewrite wp_at_set_wp, decide_True by done.
    eexists. split.
    { unfold with_tree. cbn [st_tree st_log st_tick st_panic]. f_equal.
      unfold set_wp at 1 2. destruct (st_tree s1 !! h) as [nd|] eqn:Ei.
      - rewrite lookup_insert, insert_insert. cbn [nname].
        instantiate (1 := (wadd P (wadd P wp1 KRec (recx e)).1 (KUser n) e).1).
        unfold set_wp. by rewrite Ei.
      - by destruct Hh1. }
    split.
    - apply wp_ok_wadd; try done.
    - rewrite wadd_get by done. rewrite bool_decide_false by done.
      rewrite wadd_get by done. by rewrite bool_decide_true.
    - rewrite wadd_get by done. rewrite bool_decide_true by done. f_equal. f_equal.
      rewrite wadd_wget by done. by rewrite bool_decide_false.
    - intros k Hk1 Hk2 Hk3. rewrite wadd_get by done. rewrite bool_decide_false by done.
      rewrite wadd_get by done. by rewrite bool_decide_false.
    - intros Hv. rewrite !total_wadd by done. unfold total, vis, NonRecFacts.recx in *.
      rewrite (others_split_rec wp1). clear - Hv. bits. }
  unfold dryAdd. rewrite Hvis.
  destruct (N.eqb_spec (wget wp0 KRec .& vis P (recx e)) (vis P (recx e))) as [Hin|Hin].
  - (* already covered *)
    change (is_none none) with true. cbv iota.
    assert (incl_ev (vis P (recx e)) (wget wp0 KRec)) as Hinc by (by apply land_eq_incl).
    destruct (Hbook s Ht Hh) as (wp'&Heq&Hrg).
    rewrite (surjective_pairing (watchAdd E s h (KUser n) e)), Heq.
    assert (tinv (set_wp (st_tree s) h wp')) as Ht' by (apply tinv_set_wp; [done|apply Hrg]).
    rewrite Hx2. rewrite (node_wadd_spec P sepc); [|done|done|by apply set_wp_is_Some].
    cbn [st_tree with_tree]. rewrite wp_at_set_wp, decide_True by done.
    intros [= <- <-]. right. split; [done|]. exists s, (wadd P wp' KRec (recx e)).1. split_and!.
    + unfold with_tree. cbn [st_tree st_log st_tick st_panic]. f_equal.
      unfold set_wp. destruct Hh as [nd Hnd]. rewrite Hnd. by rewrite lookup_insert, insert_insert.
    + destruct Hrg as [Hrg1 Hrg2 Hrg3 Hrg4 Hrg5]. split.
      * by apply wp_ok_wadd_rec.
      * rewrite wadd_get by done. rewrite bool_decide_true by done. rewrite (wget_Some _ _ _ Hrg2).
        f_equal. clear. bits.
      * rewrite wadd_get by done. by rewrite bool_decide_false.
      * intros k Hk1 Hk2 Hk3. rewrite wadd_get by done. rewrite bool_decide_false by done. by apply Hrg4.
      * intros Hv. rewrite total_wadd by done. rewrite Hrg5 by done. unfold total, vis, NonRecFacts.recx in *.
        fold wp0 in Hv. fold wp0. rewrite (others_split_rec wp0). clear - Hv. bits.
    + by left.
  - assert (wget wp0 KRec .&^ internal P .| vis P (recx e) ≠ 0) as Hd2.
    { intros Hz. apply (nz_cr P HP). clear - Hz Hcr. bits. }
    unfold is_none. cbn [fst snd]. rewrite (proj2 (N.eqb_neq _ _) Hd2), andb_false_r.
    assert ((wget wp0 KRec .&^ internal P =? 0) = bool_decide (wp0 !! KRec = None)) as Hz.
    { destruct (wp0 !! KRec) as [x|] eqn:Ex.
      - rewrite bool_decide_false by done. rewrite (wget_Some _ _ _ Ex).
        apply (wo_rec _ _ Hwp0) in Ex. unfold NonRecWp.recbits in Ex.
        apply N.eqb_neq. intros Hz. apply (nz_cr P HP). pose proof (d_cr_int P HP) as Hci. clear - Hz Ex Hci. bits.
      - rewrite bool_decide_true by done. by rewrite (wget_None _ _ Ex). }
    rewrite Hz. case_bool_decide as Ex.
    + destruct (nd_adddir E (recFunc E e) s h) as [s1 r1] eqn:Ea. destruct r1; intros [= <- <-].
      * right. split; [done|]. destruct (Hadd s1 eq_refl) as [Ht1 Hh1].
        destruct (Hbook s1 Ht1 Hh1) as (wp'&Heq&Hrg). exists s1, wp'. naive_solver.
      * left. naive_solver.
      * left. naive_solver.
    + destruct (nd_walk E (recFunc E e) s h) as [s1 r1] eqn:Ea.
      destruct (Hwalk s1 r1 eq_refl) as (->&Ht1&Hh1). intros [= <- <-].
      right. split; [done|]. destruct (Hbook s1 Ht1 Hh1) as (wp'&Heq&Hrg). exists s1, wp'. split_and!; try done.
      right; right. split; [|done]. destruct (wp0 !! KRec); [eauto|done].
Qed.

(** ** Plain Watch *)
Lemma nr_watch_cases E s h n e s' r :
  e_plat E = P → tinv (st_tree s) → is_Some (st_tree s !! h) → u32 e → disj_ev e (omit P) →
  nr_watch E s h (KUser n) e = (s', r) →
  let wp := wp_at (st_tree s) h in
  let wa := wadd P wp (KUser n) e in
  (r = ROk ∧ wp_ok wa.1 ∧ s' = upd E s h wa.1 wa.2) ∨
  (r = RErr ∧ ∃ c wp', 
     call_for (name_at (st_tree s) h) wa.2 = Some c ∧ e_W E (st_log s) c = false ∧
     s' = St (set_wp (st_tree s) h wp') (st_log s ++ [(c, false)]) (st_tick s) (st_panic s) ∧
     wp_ok wp' ∧ (∀ k, k ≠ KNil → k ≠ KUser n → wp' !! k = wp !! k) ∧
     wget wp' (KUser n) = (wget wp (KUser n) .| e) .&^ ((total P wp .| (e .&^ internal P)) .&^ total P wp) ∧
     wp' !! KUser n ≠ Some 0).
Proof.
  intros HE Ht Hh H32 Hom. unfold nr_watch. rewrite (node_wadd_spec P sepc) by done.
  set (wp := wp_at (st_tree s) h). cbn zeta.
  assert (wp_ok wp) as Hwp by (by eapply tinv_wp_at).
  assert (wp_ok (wadd P wp (KUser n) e).1) as Hwa by (by apply wp_ok_wadd).
  set (wa := wadd P wp (KUser n) e) in *.
  unfold upd. cbn [st_tree with_tree]. rewrite !name_at_set_wp. unfold call_for.
  destruct (is_none wa.2) eqn:En.
  { intros [= <- <-]. by left. }
  destruct (N.eqb_spec wa.2.2 0) as [Hz|Hz].
  { exfalso. eapply (wadd_diff_nz P wp (KUser n) e); [done|apply Hwp|exact En|exact Hz]. }
  set (cl := if wa.2.1 =? 0 then WWatch (name_at (st_tree s) h) wa.2.2
             else WRewatch (name_at (st_tree s) h) wa.2.1 wa.2.2).
  assert ((if wa.2.1 =? 0 then Some (WWatch (name_at (st_tree s) h) wa.2.2)
          else Some (WRewatch (name_at (st_tree s) h) wa.2.1 wa.2.2)) = Some cl) as Hcl.
  { unfold cl. by destruct (_ =? _). }
  rewrite Hcl.
  assert ((if wa.2.1 =? 0 then wcallf E (with_tree s (set_wp (st_tree s) h wa.1)) (WWatch (name_at (st_tree s) h) wa.2.2)
     else wcallf E (with_tree s (set_wp (st_tree s) h wa.1)) (WRewatch (name_at (st_tree s) h) wa.2.1 wa.2.2))
     = wcallf E (with_tree s (set_wp (st_tree s) h wa.1)) cl) as ->.
  { unfold cl. by destruct (_ =? _). }
  unfold wcallf at 1. cbn [st_log with_tree].
  destruct (e_W E (st_log s) cl) eqn:Ew; cbv iota; intros [= <- <-].
  - left. split_and!; [done|done|]. unfold wcallf. cbn [st_log with_tree fst]. by rewrite Ew.
  - right. split; [done|]. cbn [st_tree with_tree st_log st_tick st_panic].
    rewrite wp_at_set_wp, decide_True by done. rewrite HE.
    set (wd := (wdel P wa.1 (KUser n) (diff_event wa.2)).1).
    assert (∀ k, k ≠ KNil → wd !! k = if bool_decide (k = KUser n)
       then (if wget wa.1 (KUser n) .&^ diff_event wa.2 =? 0 then None else Some (wget wa.1 (KUser n) .&^ diff_event wa.2))
       else wa.1 !! k) as Hwd by (intros k Hk; by apply wdel_get).
    exists cl, wd. split_and!; [done|done| | | | |].
    + unfold with_tree. cbn [st_log st_tick st_panic]. f_equal.
      unfold set_wp. destruct Hh as [nd Hnd]. rewrite Hnd. by rewrite lookup_insert, insert_insert.
    + split.
      * by apply wdel_agg.
      * apply (u32_from_agg P); [by apply wdel_agg|]. intros k x Hk. rewrite Hwd by done.
        case_bool_decide; [|apply Hwa]. case_match; [done|]. intros [= <-]. apply u32_ldiff. apply u32_wget, Hwa.
      * intros x. rewrite Hwd by done. rewrite bool_decide_false by done. apply Hwa.
      * intros n' x. rewrite Hwd by done. case_bool_decide; [|apply Hwa].
        assert (disj_ev (wget wa.1 (KUser n)) (omit P)) as Hdis.
        { unfold wget. destruct (wa.1 !! KUser n) as [y|] eqn:Ey; simpl; [by apply (wo_user _ _ Hwa) in Ey|clear; bits]. }
        case_match; [done|]. intros [= <-]. clear - Hdis. bits.
    + intros k Hk Hk'. rewrite Hwd by done. rewrite bool_decide_false by done.
      unfold wa. rewrite wadd_get by done. by rewrite bool_decide_false.
    + unfold wd. rewrite wdel_wget by done. rewrite bool_decide_true by done.
      unfold wa at 1. rewrite wadd_wget by done. rewrite bool_decide_true by done.
      f_equal. unfold diff_event. 
      destruct (wadd_diff P wp (KUser n) e) as [[_ Hd]|[_ Hd]]; [done|apply Hwp| |].
      * fold wa in Hd. rewrite Hd in En. done.
      * fold wa in Hd. rewrite Hd. cbn [fst snd]. unfold wa. by rewrite total_wadd.
    + rewrite Hwd by done. rewrite bool_decide_true by done.
      destruct (N.eqb_spec (wget wa.1 (KUser n) .&^ diff_event wa.2) 0); [done|]. congruence.
Qed.

(** ** walkWatchpoint *)
(** A traversal whose callback updates the watchpoint of the visited node by
    [f min]. *)
Section ww.
Context (E : env) (HE : nenv E) (fn : st → N → path → st * cb) (f : N → watchpoint → watchpoint).
Context (Hf0 : ∀ m, f m ∅ = ∅).
Context (Hfok : ∀ m wp, min_ok P m → wp_ok wp → wp_ok (f m wp)).
Context (Hfn : ∀ s m h, tinv (st_tree s) → is_Some (st_tree s !! h) → min_ok P m →
  (fn s m h).2 = CNil ∧ st_tree (fn s m h).1 = set_wp (st_tree s) h (f m (wp_at (st_tree s) h)) ∧
  st_panic (fn s m h).1 = st_panic s).

(** The value passed down to a node. *)
Definition minof (h : path) (t : tree) (p : path) : N :=
  if decide (p = h) then 0 else wget (wp_at t (removelast p)) KRec.

Record ww_inv (t0 : tree) (h : path) (s : st) (stack : list (N * path)) : Prop := {
  ww_tinv : tinv (st_tree s);
  ww_nodes : same_nodes t0 (st_tree s);
  ww_names : ∀ p, name_at (st_tree s) p = name_at t0 p;
  ww_anti : antichain stack.*2;
  ww_stack : ∀ m p, (m, p) ∈ stack → is_Some (t0 !! p) ∧ h `prefix_of` p ∧ m = minof h (st_tree s) p ∧
     (∀ q, h `prefix_of` q → q `prefix_of` p → q ≠ p → ¬ under stack.*2 q);
  ww_todo : ∀ p, under stack.*2 p ∨ ¬ h `prefix_of` p → wp_at (st_tree s) p = wp_at t0 p;
  ww_done : ∀ p, h `prefix_of` p → ¬ under stack.*2 p → is_Some (t0 !! p) →
     wp_at (st_tree s) p = f (minof h (st_tree s) p) (wp_at t0 p) ∧
     (p ≠ h → ¬ under stack.*2 (removelast p));
}.

Lemma min_ok_wget wp : wp_ok wp → min_ok P (wget wp KRec).
Proof.
  intros Hwp. split; [apply u32_wget, Hwp|]. destruct (wp !! KRec) as [x|] eqn:Ex.
  - right. rewrite (wget_Some _ _ _ Ex). by apply (wo_rec _ _ Hwp).
  - left. by apply wget_None.
Qed.
Lemma minof_ok h t p : tinv t → min_ok P (minof h t p).
Proof.
  intros Ht. unfold minof. case_decide; [split; [apply u32_0|by left]|].
  apply min_ok_wget. by eapply tinv_wp_at.
Qed.
Lemma removelast_snoc {A} (p : list A) k : removelast (p ++ [k]) = p.
Proof. apply removelast_last. Qed.
Lemma size0_empty (wp : watchpoint) : (size wp =? 0)%nat = true → wp = ∅.
Proof. intros H%Nat.eqb_eq. by apply map_size_empty_inv. Qed.
Lemma set_wp_same t p : (∀ nd, t !! p = Some nd → ∃ wp, nwatch nd = Some wp) → set_wp t p (wp_at t p) = t.
Proof.
  intros H. unfold set_wp, wp_at. destruct (t !! p) as [nd|] eqn:E1; [|done].
  destruct (H _ eq_refl) as [wp Hw]. rewrite Hw. simpl. apply insert_id. rewrite E1. by destruct nd; simpl in *; subst.
Qed.

Lemma ww_step_spec s m p :
  tinv (st_tree s) → is_Some (st_tree s !! p) → min_ok P m →
  ∃ s1 ks, walkWatchpoint_step E fn s (m, p) =
      (ticked s1, Push ((λ k, (wget (wp_at (st_tree s1) p) KRec, p ++ [k])) <$> ks)) ∧
    (s1 = s ∧ wp_at (st_tree s) p = ∅ ∨ s1 = (fn s m p).1 ∧ wp_at (st_tree s) p ≠ ∅) ∧
    st_tree s1 = set_wp (st_tree s) p (f m (wp_at (st_tree s) p)) ∧ st_panic s1 = st_panic s ∧
    NoDup ks ∧ (∀ k, k ∈ ks ↔ is_Some (st_tree s !! (p ++ [k]))).
Proof.
  intros Ht Hp Hm. unfold walkWatchpoint_step, range_children.
  destruct (Nat.eqb (size (wp_at (st_tree s) p)) 0) eqn:Es.
  - apply size0_empty in Es. exists s. eexists. split; [reflexivity|]. split_and!.
    + by left.
    + rewrite Es, Hf0, <-Es. symmetry. apply set_wp_same. intros nd Hnd.
      destruct (ti_wp _ _ _ Ht _ _ Hnd) as (wp&?&?). eauto.
    + done.
    + rewrite (eo_ord _ (ne_ok _ _ _ HE)). apply NoDup_children.
    + intros k. by rewrite (eo_ord _ (ne_ok _ _ _ HE)), elem_of_children.
  - destruct (Hfn s m p Ht Hp Hm) as (H1&H2&H3). destruct (fn s m p) as [s1 r] eqn:Ef. simpl in *. subst r.
    exists s1. eexists. split; [reflexivity|]. split_and!.
    + right. split; [done|]. intros He. rewrite He in Es. by rewrite map_size_empty in Es.
    + done.
    + done.
    + rewrite (eo_ord _ (ne_ok _ _ _ HE)). apply NoDup_children.
    + intros k. rewrite (eo_ord _ (ne_ok _ _ _ HE)), elem_of_children, H2. by rewrite set_wp_is_Some.
Qed.

Lemma ww_inv_pop t0 h s m p rest s1 ks :
  closed t0 →
  ww_inv t0 h s ((m, p) :: rest) →
  st_tree s1 = set_wp (st_tree s) p (f m (wp_at (st_tree s) p)) →
  NoDup ks → (∀ k, k ∈ ks ↔ is_Some (st_tree s !! (p ++ [k]))) →
  ww_inv t0 h (ticked s1) (((λ k, (wget (wp_at (st_tree s1) p) KRec, p ++ [k])) <$> ks) ++ rest).
Proof.
  intros Hcl [Ht Hn Hnm Ha Hst Htd Hdn] Hs1 Hnd Hks.
  destruct (Hst m p ltac:(left)) as (Hp&Hhp&Hm&Habove).
  assert (is_Some (st_tree s !! p)) as Hp' by (by apply Hn).
  assert (min_ok P m) as Hmok by (rewrite Hm; by apply minof_ok).
  assert (wp_at (st_tree s) p = wp_at t0 p) as Hwp.
  { apply Htd. left. simpl. apply under_cons. by left. }
  assert ((((λ k, (wget (wp_at (st_tree s1) p) KRec, p ++ [k])) <$> ks) ++ rest).*2
          = ((λ k, p ++ [k]) <$> ks) ++ rest.*2) as Hst2.
  { rewrite fmap_app. f_equal. rewrite <-list_fmap_compose. done. }
  assert (∀ q, is_Some (t0 !! q) → under (((λ k, p ++ [k]) <$> ks) ++ rest.*2) q ↔ under (p :: rest.*2) q ∧ q ≠ p) as Hund.
  { intros q Hq. apply under_push; [done|]. intros k r ->. apply Hks. apply Hn.
    eapply closed_prefix; [done| |exact Hq]. exists r. by rewrite <-app_assoc. }
  assert (∀ q, under (((λ k, p ++ [k]) <$> ks) ++ rest.*2) q → under (p :: rest.*2) q ∧ q ≠ p) as Hund1.
  { intros q Hq. apply under_app in Hq as [Hq|Hq].
    - apply under_elem in Hq as (x&(k&->&Hk)%elem_of_list_fmap&Hx).
      split; [apply under_cons; left; by eapply snoc_prefix_of|].
      intros ->. destruct Hx as [r Hr]. apply (f_equal length) in Hr.
      rewrite !app_length in Hr. simpl in Hr. lia.
    - split; [apply under_cons; by right|]. intros ->. by eapply antichain_head. }
  assert (∀ q, q ≠ p → wp_at (st_tree s1) q = wp_at (st_tree s) q) as Hwq.
  { intros q Hq. rewrite Hs1, wp_at_set_wp, decide_False; [done|naive_solver]. }
  assert (wp_at (st_tree s1) p = f m (wp_at t0 p)) as Hwp1.
  { rewrite Hs1, wp_at_set_wp, decide_True by done. by rewrite Hwp. }
  assert (¬ p `prefix_of` removelast p ∨ p = []) as Hrl.
  { destruct p as [|k0 p0 _] using rev_ind; [by right|left]. rewrite removelast_snoc.
    intros [r Hr]. apply (f_equal length) in Hr. rewrite !app_length in Hr. simpl in Hr. lia. }
  assert (∀ q, h `prefix_of` q → ¬ under (p :: rest.*2) q → is_Some (t0 !! q) →
     minof h (st_tree s1) q = minof h (st_tree s) q) as Hmin.
  { intros q Hhq Hq Hqs. unfold minof. case_decide as Eqh; [done|].
    rewrite Hwq; [done|]. intros Heq. destruct (Hdn q) as [_ Hpar]; [done..|].
    apply Hpar; [done|]. rewrite Heq. simpl. apply under_cons. by left. }
  split; cbn [st_tree ticked].
  - rewrite Hs1. apply tinv_set_wp; [done|]. apply Hfok; [done|]. by eapply tinv_wp_at.
  - eapply same_nodes_trans; [exact Hn|]. rewrite Hs1. apply same_nodes_set_wp.
  - intros q. rewrite Hs1, name_at_set_wp. apply Hnm.
  - rewrite Hst2. by apply antichain_push.
  - rewrite Hst2. intros m' q [(k&[= -> ->]&Hk)%elem_of_list_fmap|Hin]%elem_of_app.
    + split_and!.
      * by apply Hn, Hks.
      * by apply prefix_app_r.
      * unfold minof. rewrite decide_False.
        -- by rewrite removelast_snoc.
        -- intros <-. destruct Hhp as [r Hr]. apply (f_equal length) in Hr.
           rewrite !app_length in Hr. simpl in Hr. lia.
      * intros x Hhx Hx Hne. apply prefix_snoc_cases in Hx as [Hx|Hx]; [|done].
        intros Hu%Hund1. destruct (decide (x = p)) as [->|Hxp]; [naive_solver|].
        eapply (Habove x); [done..|apply Hu].
    + destruct (Hst m' q ltac:(by right)) as (H1&H2&H3&H4). split_and!; [done|done| |].
      * rewrite H3. unfold minof. case_decide as Eqh; [done|]. f_equal. symmetry. apply Hwq.
        intros Heq. assert (q ≠ []) as Hq0.
        { intros ->. apply Eqh. symmetry. by apply prefix_nil_inv. }
        destruct q as [|kk q _] using rev_ind; [done|]. rewrite removelast_snoc in Heq. subst q.
        eapply (antichain_head' p rest.*2 (p ++ [kk])); [done|by apply prefix_app_r|].
        apply under_elem. exists (p ++ [kk]). split; [|done]. apply elem_of_list_fmap. by exists (m', p ++ [kk]).
      * intros x Hhx Hx Hne Hu%Hund1. eapply (H4 x); [done..|apply Hu].
  - rewrite Hst2. intros q [Hq|Hq].
    + apply Hund1 in Hq as [Hq Hne]. rewrite Hwq by done. apply Htd. by left.
    + rewrite Hwq by (by intros ->). apply Htd. by right.
  - rewrite Hst2. intros q Hhq Hq Hqs. rewrite Hund in Hq by done.
    destruct (decide (q = p)) as [->|Hqp].
    + assert (p ≠ h → minof h (st_tree s1) p = minof h (st_tree s) p) as Hmp.
      { intros Hph. unfold minof. rewrite !decide_False by done. rewrite Hwq; [done|].
        destruct Hrl as [Hrl| ->]; [by intros Hr; rewrite Hr in Hrl|].
        destruct Hph. symmetry. by apply prefix_nil_inv. }
      split.
      * rewrite Hwp1, Hm. f_equal. destruct (decide (p = h)) as [->|Hph]; [|by rewrite Hmp].
        unfold minof. by rewrite !decide_True.
      * intros Hph Hu%Hund1. destruct Hu as [Hu _]. eapply (Habove (removelast p)); [| | |exact Hu].
        -- destruct p as [|k0 p0 _] using rev_ind; [by apply prefix_nil_inv in Hhp as ->|].
           rewrite removelast_snoc. by apply prefix_snoc_cases in Hhp as [?| ->].
        -- destruct p as [|k0 p0 _] using rev_ind; [done|]. rewrite removelast_snoc. by apply prefix_app_r.
        -- intros Heq. destruct Hrl as [Hrl| ->]; [by rewrite Heq in Hrl|].
           destruct Hph. symmetry. by apply prefix_nil_inv.
    + assert (¬ under (p :: rest.*2) q) as Hq' by naive_solver.
      rewrite Hwq by done. destruct (Hdn q Hhq Hq' Hqs) as [H1 H2]. split.
      * rewrite H1. f_equal. symmetry. by apply Hmin.
      * intros Hqh [Hu _]%Hund1. by apply H2.
Qed.

Lemma ww_loop (I : st → list path → Prop) s h s' r :
  tinv (st_tree s) → is_Some (st_tree s !! h) →
  (∀ s1 m p rest s2 ks, I s1 (p :: rest) →
     tinv (st_tree s1) → is_Some (st_tree s1 !! p) → min_ok P m → wp_at (st_tree s1) p = wp_at (st_tree s) p →
     name_at (st_tree s1) p = name_at (st_tree s) p → h `prefix_of` p → antichain (p :: rest) →
     (s2 = s1 ∧ wp_at (st_tree s1) p = ∅ ∨ s2 = (fn s1 m p).1 ∧ wp_at (st_tree s1) p ≠ ∅) →
     (∀ k, k ∈ ks ↔ is_Some (st_tree s !! (p ++ [k]))) → m = minof h (st_tree s1) p →
     I (ticked s2) (((λ k, p ++ [k]) <$> ks) ++ rest)) →
  I s [h] →
  walkWatchpoint E fn s h = (s', r) →
  r = LDone ∧ tinv (st_tree s') ∧ same_nodes (st_tree s) (st_tree s') ∧ st_panic s' = st_panic s ∧
  (∀ p, name_at (st_tree s') p = name_at (st_tree s) p) ∧
  (∀ p, is_Some (st_tree s !! p) → wp_at (st_tree s') p =
     if decide (h `prefix_of` p) then f (minof h (st_tree s') p) (wp_at (st_tree s) p) else wp_at (st_tree s) p) ∧
  I s' [].
Proof.
  intros Ht Hh HI HI0 Hl. unfold walkWatchpoint in Hl.
  set (Inv := λ s1 (stack : list (N * path)), ww_inv (st_tree s) h s1 stack ∧ st_panic s1 = st_panic s ∧ I s1 stack.*2).
  assert (closed (st_tree s)) as Hcl by (by eapply tinv_closed).
  assert (Inv s [(0, h)]) as Hinit.
  { unfold Inv. split_and!; [|done|done]. split; try done.
    - apply antichain_single.
    - intros m p [= -> ->]%elem_of_list_singleton. split_and!; [done|done| |].
      + unfold minof. by rewrite decide_True.
      + intros q Hhq Hqh Hne. destruct Hne. by apply prefix_antisym.
    - intros p Hhp Hu. destruct Hu. apply under_cons. by left. }
  assert (∀ s1 x rest s2 l, Inv s1 (x :: rest) → walkWatchpoint_step E fn s1 x = (s2, Push l) →
    Inv s2 (l ++ rest) ∧ (pending (st_tree s2) (l ++ rest).*2 < pending (st_tree s1) (x :: rest).*2)%nat) as Hpush.
  { intros s1 [m p] rest s2 l (Hi&Hpa&HI1) Hs.
    pose proof Hi as [Ht1 Hn1 Hnm1 Ha1 Hst1 Htd1 Hdn1].
    destruct (Hst1 m p ltac:(left)) as (Hp&Hhp&Hm&Habove).
    assert (is_Some (st_tree s1 !! p)) as Hp' by (by apply Hn1).
    assert (min_ok P m) as Hmok by (rewrite Hm; by apply minof_ok).
    destruct (ww_step_spec s1 m p Ht1 Hp' Hmok) as (s3&ks&Heq&Hc&Htr&Hpan&Hnd&Hks).
    rewrite Heq in Hs. injection Hs as <- <-.
    assert (ww_inv (st_tree s) h (ticked s3) (((λ k, (wget (wp_at (st_tree s3) p) KRec, p ++ [k])) <$> ks) ++ rest)) as Hi2
      by (by eapply ww_inv_pop).
    assert ((((λ k, (wget (wp_at (st_tree s3) p) KRec, p ++ [k])) <$> ks) ++ rest).*2
          = ((λ k, p ++ [k]) <$> ks) ++ rest.*2) as Hst2.
    { rewrite fmap_app. f_equal. rewrite <-list_fmap_compose. done. }
    split; [split_and!|].
    - done.
    - simpl. by rewrite Hpan.
    - rewrite Hst2. eapply (HI s1 m); try done.
      + apply Htd1. left. apply under_cons. by left.
      + intros k. rewrite Hks. symmetry. apply Hn1.
    - rewrite Hst2. apply (pending_lt _ _ _ _ p).
      + cbn [st_tree ticked]. rewrite Htr. apply same_nodes_set_wp.
      + done.
      + apply under_cons. by left.
      + intros q Hq Hu. simpl in Ha1. apply under_push in Hu; [done|done|].
        intros k r0 ->. apply Hks. eapply closed_prefix; [by eapply tinv_closed| |exact Hq].
        exists r0. by rewrite <-app_assoc. }
  assert (∀ s1 x rest s2, Inv s1 (x :: rest) → walkWatchpoint_step E fn s1 x ≠ (s2, Abort)) as Hab.
  { intros s1 [m p] rest s2 (Hi&_&_).
    pose proof Hi as [Ht1 Hn1 Hnm1 Ha1 Hst1 Htd1 Hdn1].
    destruct (Hst1 m p ltac:(left)) as (Hp&Hhp&Hm&Habove).
    destruct (ww_step_spec s1 m p) as (s3&ks&Heq&_).
    - done.
    - by apply Hn1.
    - rewrite Hm. by apply minof_ok.
    - by rewrite Heq. }
  assert (r ≠ LFuel) as Hnf.
  { eapply (loop_terminates _ Inv (λ s1 stack, pending (st_tree s1) stack.*2)); [exact Hpush|exact Hinit| |exact Hl].
    apply Nat.lt_succ_r, pending_le. }
  eapply (loop_ind _ Inv (λ _, False)) in Hl; [|naive_solver|naive_solver|done].
  destruct r; [|done|done]. destruct Hl as ([Ht1 Hn1 Hnm1 Ha1 Hst1 Htd1 Hdn1]&Hpa&HI1).
  split_and!; try done. intros p Hp. case_decide as Hhp.
  - apply Hdn1; [done| |done]. apply under_nil.
  - apply Htd1. by right.
Qed.
End ww.
End ops.
