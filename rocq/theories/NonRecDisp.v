(** * NonRecDisp: what dispatch delivers *)
From Verif Require Import Base Event Watchpoint WatchpointFacts Paths PathsFacts Loop LoopFacts
  Node NodeFacts SpecTree WalkFacts RootFacts NonRec NonRecWp SpecNonRec NonRecFacts NonRecOps NonRecReg NonRecStep.
Local Open Scope N_scope.

Section disp.
Context (P : platform) (HP : platform_ok P) (Hwin : windows P = false) (sepc : ascii).
Notation render := (render sepc).
Notation nenv := (nenv P sepc).
Notation wp_ok := (wp_ok P).
Notation tinv := (tinv P sepc).

Definition cnt (k : key) (l : list key) : nat := length (filter (k =.) l).
Lemma cnt_app k l l' : cnt k (l ++ l') = (cnt k l + cnt k l')%nat.
Proof. unfold cnt. by rewrite filter_app, app_length. Qed.
Lemma cnt_NoDup k l : NoDup l → cnt k l = if decide (k ∈ l) then 1%nat else 0%nat.
Proof.
  intros Hnd. unfold cnt. induction Hnd as [|x l Hx Hnd IH]; [done|].
  rewrite filter_cons. destruct (decide (k = x)) as [->|Hne].
  - simpl. rewrite IH. rewrite decide_False by done. rewrite decide_True by left. done.
  - rewrite IH. destruct (decide (k ∈ l)).
    + rewrite decide_True by (by right). done.
    + rewrite decide_False by set_solver. done.
Qed.

Lemma dispatch_at_cnt E s ei extra h n :
  nenv E → tinv (st_tree s) → ei_event ei .| extra ≠ 0 → disj_ev (ei_event ei .| extra) (omit P) →
  cnt (KUser n) (dispatch_at E (st_tree s) ei extra h) = gets (ureg s) n (ei_event ei .| extra) h ∧
  KRec ∉ dispatch_at E (st_tree s) ei extra h ∧ KNil ∉ dispatch_at E (st_tree s) ei extra h.
Proof.
  intros HE Ht Hnz Hom. unfold dispatch_at. rewrite (ne_plat _ _ _ HE).
  set (wp := wp_at (st_tree s) h).
  assert (wp_ok wp) as Hwp by (by eapply tinv_wp_at).
  assert (eventmask P ei extra = ei_event ei .| extra) as Hm.
  { unfold eventmask. by rewrite Hwin. }
  pose proof (eo_word _ (ne_ok _ _ _ HE) (length h) (map_to_list wp)) as Hord.
  assert (∀ k, k ∈ wtargets P wp (e_word E (length h) (map_to_list wp)) ei extra ↔
     k ≠ KNil ∧ ∃ eset, wp !! k = Some eset ∧ disj_ev eset (omit P) ∧ incl_ev (ei_event ei .| extra) eset) as Hel.
  { intros k. rewrite wtargets_exact; [by rewrite Hm|done|apply Hwp|done|by rewrite Hm]. }
  split_and!.
  - rewrite cnt_NoDup by (by apply wtargets_NoDup). unfold gets, ureg. fold wp.
    destruct (decide (KUser n ∈ wtargets P wp (e_word E (length h) (map_to_list wp)) ei extra)) as [Hin|Hin].
    + rewrite decide_True; [done|]. apply Hel in Hin as (_&eset&Hl&_&Hi).
      rewrite (wget_Some _ _ _ Hl). rewrite N.land_comm. by apply land_eq_incl.
    + rewrite decide_False; [done|]. intros Hx. apply Hin. apply Hel. split; [done|].
      rewrite N.land_comm in Hx. apply land_eq_incl in Hx.
      destruct (wp !! KUser n) as [x|] eqn:Ex.
      * exists x. rewrite (wget_Some _ _ _ Ex) in Hx. split_and!; [done| |done]. by eapply wo_user.
      * exfalso. rewrite (wget_None _ _ Ex) in Hx. apply nonzero_bit in Hnz as [i Hi]. apply Hx in Hi. by apply has_0 in Hi.
  - rewrite Hel. intros (_&eset&Hl&Hd&_). apply (wo_rec _ _ Hwp) in Hl. unfold recbits in Hl.
    apply (nz_om P HP). clear - Hl Hd. bits.
  - rewrite Hel. naive_solver.
Qed.

Lemma gets_0 (g : path → positive → N) n ev q : ev ≠ 0 → g q n = 0 → gets g n ev q = 0%nat.
Proof. intros Hev Hg. unfold gets. rewrite Hg, N.land_0_r. by rewrite decide_False by done. Qed.
Lemma ureg_missing s q n : st_tree s !! q = None → ureg s q n = 0.
Proof. intros H. unfold ureg, wp_at. by rewrite H. Qed.

Definition nsum (l : list nat) : nat := foldr Nat.add 0%nat l.
Lemma nsum_app l l' : nsum (l ++ l') = (nsum l + nsum l')%nat.
Proof. unfold nsum. induction l; simpl; lia. Qed.

(** The walk part of dispatch down to depth [d]. *)
Lemma dispatch_fold E s ei p d n :
  nenv E → tinv (st_tree s) → ei_event ei ≠ 0 → disj_ev (ei_event ei) (omit P) → (d ≤ length p)%nat →
  let r := foldl (λ a n, (dispatch_fn E (st_tree s) ei a (take n p) (bool_decide (n = length p))).1) (DAcc [] false None) (seq 0 (S d)) in
  cnt (KUser n) (da_sends r) =
    nsum ((λ k, gets (ureg s) n (ei_event ei .| recursive P) (take k p)) <$> seq 0 (Nat.min (S d) (length p))) ∧
  KRec ∉ da_sends r ∧ KNil ∉ da_sends r ∧
  (d = length p → da_nd r = Some p).
Proof.
  intros HE Ht Hev Hom. cbn zeta.
  assert (ei_event ei .| recursive P ≠ 0) as Hnz.
  { intros Hz. apply Hev. clear - Hz. bits. }
  assert (disj_ev (ei_event ei .| recursive P) (omit P)) as Hom'.
  { pose proof (d_re_om P HP) as Hd. clear - Hd Hom. bits. }
  induction d as [|d IH]; intros Hd.
  - cbn [seq foldl]. unfold dispatch_fn. case_bool_decide as Hl; cbn [fst da_sends da_nd].
    + rewrite <-Hl. simpl. split_and!; [done|set_solver|set_solver|]. intros _.
      symmetry in Hl. apply nil_length_inv in Hl as ->. done.
    + replace (Nat.min 1 (length p)) with 1%nat by lia. cbn [seq]. rewrite app_nil_l.
      destruct (dispatch_at_cnt E s ei (recursive P) (take 0 p) n) as (H1&H2&H3); try done.
      rewrite (ne_plat _ _ _ HE). rewrite H1. split_and!; [|done|done|lia].
      simpl. lia.
  - destruct IH as (H1&H2&H3&H4); [lia|].
    rewrite seq_S, foldl_app. set (r := foldl _ _ _) in *. simpl (0 + S d)%nat. cbn [foldl].
    unfold dispatch_fn. case_bool_decide as Hl; cbn [fst da_sends da_nd].
    + replace (Nat.min (S (S d)) (length p)) with (length p) by lia.
      replace (Nat.min (S d) (length p)) with (length p) in H1 by lia.
      split_and!; [done|done|done|]. intros _. by rewrite Hl, firstn_all.
    + destruct (dispatch_at_cnt E s ei (recursive P) (take (S d) p) n) as (K1&K2&K3); try done.
      rewrite (ne_plat _ _ _ HE). rewrite cnt_app, H1, K1.
      replace (Nat.min (S (S d)) (length p)) with (S (S d)) by lia.
      replace (Nat.min (S d) (length p)) with (S d) by lia.
      split_and!.
      * rewrite (seq_S (S d)), fmap_app, nsum_app. simpl. lia.
      * set_solver.
      * set_solver.
      * lia.
Qed.

Lemma dispatch_spec E s ei d c :
  nenv E → tinv (st_tree s) → ei_event ei ≠ 0 → disj_ev (ei_event ei) (omit P) →
  upath sepc d → comp_ok sepc c → ei_path ei = render (d ++ [c]) →
  (∀ n, offered E s ei (KUser n) = deliveries P (ureg s) n (ei_event ei) d c) ∧
  KRec ∉ (nr_dispatch E (st_tree s) ei).1 ∧ KNil ∉ (nr_dispatch E (st_tree s) ei).1.
Proof.
  intros HE Ht Hev Hom Hd Hc Hpath.
  assert (∀ n, cnt (KUser n) (nr_dispatch E (st_tree s) ei).1 = deliveries P (ureg s) n (ei_event ei) d c ∧
    KRec ∉ (nr_dispatch E (st_tree s) ei).1 ∧ KNil ∉ (nr_dispatch E (st_tree s) ei).1) as Hx.
  2:{ split_and!; [intros n; apply Hx|apply (Hx 1%positive)|apply (Hx 1%positive)]. }
  intros n. unfold nr_dispatch. rewrite Hpath, (ne_sep _ _ _ HE), split_render by done.
  assert (ei_event ei .| recursive P ≠ 0) as Hnz.
  { intros Hz. apply Hev. clear - Hz. bits. }
  assert (ei_event ei .| 0 ≠ 0) as Hnz0 by (by rewrite N.lor_0_r).
  assert (disj_ev (ei_event ei .| 0) (omit P)) as Hom0 by (by rewrite N.lor_0_r).
  destruct (walkpath_cnil P sepc E (dispatch_fn E (st_tree s) ei) (st_tree s) d (DAcc [] false None) HE Ht Hd)
    as (k&Hk&Hpre&Hmiss&Hw).
  { intros a q b. unfold dispatch_fn. by destruct b. }
  rewrite (ne_sep _ _ _ HE) in Hw. rewrite Hw.
  destruct (dispatch_fold E s ei d k n HE Ht Hev Hom Hk) as (H1&H2&H3&H4).
  set (r := foldl _ _ _) in *. unfold deliveries. change (foldr Nat.add 0%nat) with nsum.
  destruct (decide (k = length d)) as [Hkd|Hkd].
  - rewrite (H4 Hkd). change (default [] (Some d)) with d. cbv zeta.
    replace (Nat.min (S k) (length d)) with (length d) in H1 by lia.
    destruct (dispatch_at_cnt E s ei 0 d n) as (K1&K2&K3); try done.
    rewrite N.lor_0_r in K1.
    destruct (st_tree s !! (d ++ [c])) as [nd|] eqn:Ec; cbv beta iota zeta; cbn [fst].
    + destruct (dispatch_at_cnt E s ei 0 (d ++ [c]) n) as (L1&L2&L3); try done. rewrite N.lor_0_r in L1.
      rewrite !cnt_app, H1, K1, L1. split_and!; [done|set_solver|set_solver].
    + rewrite !cnt_app, H1, K1. rewrite (gets_0 (ureg s) n _ (d ++ [c])); [|done|by apply ureg_missing].
      split_and!; [lia|set_solver|set_solver].
  - cbn [fst]. split_and!; [|done|done]. rewrite H1.
    replace (Nat.min (S k) (length d)) with (S k) by lia.
    specialize (Hmiss ltac:(lia)).
    assert (∀ q, take (S k) d `prefix_of` q → ureg s q n = 0) as Hz.
    { intros q Hq. apply ureg_missing. destruct (st_tree s !! q) eqn:Eq; [|done].
      destruct (closed_prefix (st_tree s) (take (S k) d) q (tinv_closed _ _ _ Ht) Hq); [eauto|congruence]. }
    assert (take (S k) d `prefix_of` d) as Hpd by (exists (drop (S k) d); by rewrite take_drop).
    rewrite (gets_0 (ureg s) n _ d); [|done|by apply Hz].
    rewrite (gets_0 (ureg s) n _ (d ++ [c])); [|done|apply Hz; by apply prefix_app_r].
    replace (length d) with (S k + (length d - S k))%nat by lia.
    rewrite seq_app, fmap_app, nsum_app.
    assert (nsum ((λ k0, gets (ureg s) n (ei_event ei .| recursive P) (take k0 d)) <$> seq (0 + S k) (length d - S k)) = 0%nat) as ->; [|lia].
    assert (∀ l, Forall (λ j, (S k ≤ j)%nat) l → nsum ((λ k0, gets (ureg s) n (ei_event ei .| recursive P) (take k0 d)) <$> l) = 0%nat) as Hl.
    { induction 1 as [|j l Hj _ IH]; [done|]. cbn [fmap list_fmap]. unfold nsum in *. simpl. rewrite IH.
      rewrite gets_0; [done|done|]. apply Hz. exists (drop (S k) (take j d)).
      rewrite <-(take_drop (S k) (take j d)) at 1. by rewrite take_take, Nat.min_l by lia. }
    apply Hl. apply Forall_forall. intros j Hj%elem_of_seq. lia.
Qed.
End disp.
