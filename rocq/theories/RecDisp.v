(** * RecDisp: what the recursive tree delivers *)
From Verif Require Import Base Event Watchpoint WatchpointFacts Paths PathsFacts Loop LoopFacts
  Node NodeFacts SpecTree WalkFacts RootFacts NonRec NonRecWp Rec SpecNonRec NonRecDisp SpecRec RecFacts RecReg.
Local Open Scope N_scope.

Lemma cnt_NoDup' k l : NoDup l → cnt k l = if decide (k ∈ l) then 1%nat else 0%nat.
Proof.
  intros Hnd. unfold cnt. induction Hnd as [|x l Hx Hnd IH]; [done|].
  rewrite filter_cons. destruct (decide (k = x)) as [->|Hne].
  - simpl. rewrite IH. rewrite decide_False by done. rewrite decide_True by left. done.
  - rewrite IH. destruct (decide (k ∈ l)) as [Hk|Hk].
    + rewrite decide_True by (by right). done.
    + rewrite decide_False; [done|]. intros [?|?]%elem_of_cons; done.
Qed.

Section disp.
Context (P : platform) (HP : platform_ok P) (sepc : ascii) (w : bool) (isvol : str → Prop).
Notation nameof := (nameof sepc w).
Notation renv := (renv P sepc w isvol).
Notation rpath := (rpath sepc w isvol).
Notation wpd := (wpd P).
Notation rinv := (rinv P sepc w isvol).

(** [x] is matched by the lookup mask [m]. *)
Lemma matches_0 m : m ≠ 0 → disj_ev m (omit P) → matches P 0 m = false.
Proof.
  intros Hm Ho. apply not_true_iff_false. intros H. apply nonzero_bit in Hm as [i Hi]. destruct (windows P) eqn:Ew.
  - apply matches_win in H as [_ [H|(j&H&_)]]; [|by apply has_0 in H|done|done]. apply H in Hi. by apply has_0 in Hi.
  - apply matches_noomit in H as [_ H]; [|done|done]. apply H in Hi. by apply has_0 in Hi.
Qed.
Lemma matches_mono m x y :
  disj_ev m (omit P) → incl_ev x y → disj_ev y (omit P) → matches P x m = true → matches P y m = true.
Proof.
  intros Ho Hi Hy H. destruct (windows P) eqn:Ew.
  - apply matches_win in H as [_ H]; [|done|done]. apply matches_win; [done|done|]. split; [done|].
    destruct H as [H|(i&H1&H2&H3)]; [left; clear - H Hi; bits|right]. exists i. split_and!; [by apply Hi|done|done].
  - apply matches_noomit in H as [_ H]; [|done|done]. apply matches_noomit; [done|done|]. split; [done|]. clear - H Hi. bits.
Qed.
Definition hit (t : tree) (n : positive) (m : N) (q : path) : nat := if matches P (rureg t q n) m then 1 else 0.

Lemma dispatch_at_hit E t ei extra h n :
  renv E → rinv t → [] ∉ h → eventmask P ei extra ≠ 0 → disj_ev (eventmask P ei extra) (omit P) →
  cnt (KUser n) (dispatch_at E t ei extra h) = hit t n (eventmask P ei extra) h ∧
  KRec ∉ dispatch_at E t ei extra h ∧ KNil ∉ dispatch_at E t ei extra h.
Proof.
  intros HE Ht Hh Hnz Hom. unfold dispatch_at. rewrite (re_plat _ _ _ _ _ HE).
  set (wp := wp_at t h). set (m := eventmask P ei extra) in *.
  assert (wpd wp) as Hwp by (by eapply rinv_wp).
  pose proof (eo_word _ (re_ok _ _ _ _ _ HE) (length h) (map_to_list wp)) as Hord.
  split_and!.
  - rewrite cnt_NoDup' by (by apply wtargets_NoDup). unfold hit, rureg. fold wp.
    destruct (matches P (wget wp (KUser n)) m) eqn:Em.
    + rewrite decide_True; [done|]. apply wtargets_elem; [done|]. fold m. split_and!.
      * eapply matches_mono; [done|by apply (wpd_get P)|apply Hwp|exact Em].
      * done.
      * destruct (wp !! KUser n) as [x|] eqn:Ex.
        -- exists x. by rewrite (wget_Some _ _ _ Ex) in Em.
        -- rewrite (wget_None _ _ Ex), matches_0 in Em by done. done.
    + rewrite decide_False; [done|]. intros (_&_&x&Hx&Hm)%wtargets_elem; [|done].
      rewrite (wget_Some _ _ _ Hx) in Em. fold m in Hm. congruence.
  - intros (_&_&x&Hx&_)%wtargets_elem; [|done]. by rewrite (wd_rec _ _ Hwp) in Hx.
  - intros (_&Hx&_)%wtargets_elem; done.
Qed.
Lemma hit_missing t n m q : m ≠ 0 → disj_ev m (omit P) → t !! q = None → hit t n m q = 0%nat.
Proof. intros Hm Ho Hq. unfold hit, rureg, wp_at. rewrite Hq. unfold wget. rewrite lookup_empty. simpl. by rewrite matches_0. Qed.
Lemma hit_root t n m : rinv t → m ≠ 0 → disj_ev m (omit P) → hit t n m [] = 0%nat.
Proof.
  intros Ht Hm Ho. unfold hit, rureg. destruct (decide (wp_at t [] = ∅)) as [->|Hne].
  - unfold wget. rewrite lookup_empty. simpl. by rewrite matches_0.
  - exfalso. assert (rpath []) as K.
    { eapply rinv_rpath; [exact Ht|by intros ?%elem_of_nil|done]. }
    by apply rpath_ne in K.
Qed.

Lemma along_all {A} (fn : A → path → bool → A * cb) t p k m a :
  (∀ a q b, (fn a q b).2 = CNil) →
  ∃ j, (j ≤ m)%nat ∧ (∀ n, (k ≤ n < k + j)%nat → is_Some (t !! take n p)) ∧
    ((j < m)%nat → t !! take (k + j) p = None) ∧
    along fn t a ((λ n, (take n p, bool_decide (n = length p))) <$> seq k m) =
      (foldl (λ a n, (fn a (take n p) (bool_decide (n = length p))).1) a (seq k j),
       if decide (j = m) then WPOk else WPNotExist).
Proof.
  intros Hfn. revert k a. induction m as [|m IH]; intros k a; simpl.
  - exists 0%nat. split_and!; [lia|lia|lia|done].
  - destruct (t !! take k p) as [nd|] eqn:Ek.
    + specialize (Hfn a (take k p) (bool_decide (k = length p))).
      destruct (fn a (take k p) (bool_decide (k = length p))) as [a' r] eqn:Ef. simpl in Hfn. subst r.
      destruct (IH (S k) a') as (j&H1&H2&H3&H4). exists (S j). split_and!.
      * lia.
      * intros n Hn. destruct (decide (n = k)) as [->|Hne]; [eauto|]. apply H2. lia.
      * intros Hlt. replace (k + S j)%nat with (S k + j)%nat by lia. apply H3. lia.
      * etrans; [apply H4|]. cbn [seq foldl]. rewrite Ef. cbn [fst].
        destruct (decide (j = m)) as [->|Hjm]; [by rewrite !decide_True|by rewrite !decide_False by lia].
    + exists 0%nat. split_and!; [lia|lia| |done].
      intros _. by rewrite Nat.add_0_r.
Qed.

Lemma take_plain k (p : path) : [] ∉ p → [] ∉ take k p.
Proof. intros H K. apply H. rewrite <-(take_drop k p). apply elem_of_app. by left. Qed.

(** The walk part of dispatch. *)
Lemma rdispatch_fold E t ei p n k j a :
  renv E → rinv t → [] ∉ p →
  eventmask P ei (recursive P) ≠ 0 → disj_ev (eventmask P ei (recursive P)) (omit P) →
  (k + j ≤ S (length p))%nat →
  let r := foldl (λ a n, (rdispatch_fn E t ei a (take n p) (bool_decide (n = length p))).1) a (seq k j) in
  cnt (KUser n) r.1 = (cnt (KUser n) a.1 +
    nsum ((λ i, hit t n (eventmask P ei (recursive P)) (take i p)) <$> seq k (Nat.min j (length p - k))))%nat ∧
  (KRec ∉ a.1 → KRec ∉ r.1) ∧ (KNil ∉ a.1 → KNil ∉ r.1) ∧
  ((k ≤ length p)%nat → (k + j = S (length p))%nat → r.2 = Some p).
Proof.
  intros HE Ht Hp Hnz Hom. cbv zeta. revert k a. induction j as [|j IH]; intros k a Hkj.
  - cbn [seq foldl]. rewrite Nat.min_0_l. simpl. split_and!; [lia|done|done|lia].
  - cbn [seq foldl]. set (a' := (rdispatch_fn E t ei a (take k p) (bool_decide (k = length p))).1).
    specialize (IH (S k) a' ltac:(lia)). destruct IH as (H1&H2&H3&H4).
    assert (a' = if decide (k = length p) then (a.1, Some (take k p))
                 else (a.1 ++ dispatch_at E t ei (recursive P) (take k p), a.2)) as Ha'.
    { unfold a', rdispatch_fn. rewrite (re_plat _ _ _ _ _ HE). destruct (decide (k = length p)) as [Hk|Hk].
      - by rewrite bool_decide_true.
      - by rewrite bool_decide_false. }
    clearbody a'. destruct (decide (k = length p)) as [Hk|Hk]; subst a'; cbn [fst snd] in *.
    + replace (Nat.min (S j) (length p - k)) with 0%nat by lia.
      replace (Nat.min j (length p - S k)) with 0%nat in H1 by lia. split_and!; try done.
      intros _ _. assert (j = 0%nat) as -> by lia. cbn [seq foldl].
      cbn [fst snd]. by rewrite Hk, firstn_all.
    + destruct (dispatch_at_hit E t ei (recursive P) (take k p) n HE Ht (take_plain k p Hp) Hnz Hom) as (K1&K2&K3).
      rewrite cnt_app, K1 in H1. split_and!.
      * rewrite H1. replace (Nat.min (S j) (length p - k)) with (S (Nat.min j (length p - S k))) by lia.
        cbn [seq]. rewrite fmap_cons. unfold nsum. simpl. lia.
      * intros Ha. apply H2. intros [?|?]%elem_of_app; done.
      * intros Ha. apply H3. intros [?|?]%elem_of_app; done.
      * intros Hle Heq. apply H4; lia.
Qed.

Lemma nameof_snoc d c : d ≠ [] → nameof (d ++ [c]) = nameof d ++ sepc :: c.
Proof.
  intros Hd. unfold SpecTree.nameof. destruct w.
  - destruct d as [|v cs]; [done|]. simpl. rewrite render_app. simpl. by rewrite app_nil_r, <-app_assoc.
  - rewrite render_app. simpl. by rewrite app_nil_r.
Qed.
Lemma rec_dispatch_spec E t ei d c n :
  renv E → rinv t → rpath d → c ≠ [] → comp_ok sepc c → ei_path ei = nameof (d ++ [c]) →
  let m := eventmask P ei 0 in let mr := eventmask P ei (recursive P) in
  m ≠ 0 → disj_ev m (omit P) → mr ≠ 0 → disj_ev mr (omit P) →
  cnt (KUser n) (rec_dispatch E t ei) =
    (nsum ((λ k, hit t n mr (take k d)) <$> seq 0 (length d)) + hit t n m d + hit t n m (d ++ [c]))%nat ∧
  KRec ∉ rec_dispatch E t ei ∧ KNil ∉ rec_dispatch E t ei.
Proof.
  intros HE Ht Hd Hcne Hc Hpath m mr Hm Hmo Hmr Hmro.
  assert ([] ∉ d) as Hdp by apply Hd. pose proof (rpath_ne _ _ _ _ Hd) as Hdne.
  unfold rec_dispatch. rewrite Hpath, nameof_snoc, (re_sep _ _ _ _ _ HE), split_sep by (done || apply Hc).
  rewrite (r_walkpath_spec sepc (e_vol E) w _ t _ d (nameof d) (ri_wf _ _ _ _ _ Ht) (rpath_spells P sepc w isvol E d HE Hd)).
  unfold chain. set (k := if w then 1%nat else 0%nat).
  assert (k ≤ length d)%nat as Hkd. { unfold k. destruct w; [|lia]. destruct d; [done|simpl; lia]. }
  destruct (along_all (rdispatch_fn E t ei) t d k (S (length d) - k) ([], None)) as (j&Hj&Hpre&Hmiss&Hw).
  { intros a q b. unfold rdispatch_fn. by destruct b. }
  rewrite Hw.
  pose proof (hit_root t n mr Ht Hmr Hmro) as Hroot.
  assert (nsum ((λ i, hit t n mr (take i d)) <$> seq 0 (length d)) =
          nsum ((λ i, hit t n mr (take i d)) <$> seq k (length d - k))) as Hsum.
  { unfold k. destruct w; [|by rewrite Nat.sub_0_r]. destruct d as [|v d']; [done|]. simpl length. cbn [seq].
    replace (S (length d') - 1)%nat with (length d') by lia. rewrite fmap_cons. simpl take.
    change (nsum (hit t n mr [] :: ?l)) with (hit t n mr [] + nsum l)%nat. by rewrite Hroot. }
  rewrite Hsum.
  destruct (rdispatch_fold E t ei d n k j ([], None) HE Ht Hdp Hmr Hmro ltac:(lia)) as (H1&H2&H3&H4).
  fold mr in H1. set (r := foldl _ _ _) in *.
  assert (KRec ∉ r.1) as H2' by (apply H2; by intros ?%elem_of_nil).
  assert (KNil ∉ r.1) as H3' by (apply H3; by intros ?%elem_of_nil). cbn in H1.
  change (cnt (KUser n) []) with 0%nat in H1.
  destruct (decide (j = (S (length d) - k)%nat)) as [Hjd|Hjd].
  - rewrite (H4 Hkd ltac:(lia)). change (default [] (Some d)) with d. cbv zeta.
    replace (Nat.min j (length d - k)) with (length d - k)%nat in H1 by lia.
    destruct (dispatch_at_hit E t ei 0 d n HE Ht Hdp Hm Hmo) as (K1&K2&K3). fold m in K1.
    assert ([] ∉ d ++ [c]) as Hdc.
    { intros [?|K%elem_of_list_singleton]%elem_of_app; done. }
    destruct (t !! (d ++ [c])) as [nd|] eqn:Ec.
    + destruct (dispatch_at_hit E t ei 0 (d ++ [c]) n HE Ht Hdc Hm Hmo) as (L1&L2&L3). fold m in L1.
      rewrite !cnt_app, H1, K1, L1. split_and!; [lia|set_solver|set_solver].
    + rewrite !cnt_app, H1, K1. rewrite (hit_missing t n m (d ++ [c])) by done.
      change (cnt (KUser n) []) with 0%nat. split_and!; [lia|set_solver|set_solver].
  - split_and!; [|done|done]. rewrite H1. specialize (Hmiss ltac:(lia)).
    replace (Nat.min j (length d - k)) with j by lia.
    assert (∀ q, take (k + j) d `prefix_of` q → t !! q = None) as Hz.
    { intros q Hq. destruct (t !! q) eqn:Eq; [|done].
      destruct (closed_prefix t (take (k + j) d) q (rinv_closed _ _ _ _ _ Ht) Hq); [eauto|congruence]. }
    assert (take (k + j) d `prefix_of` d) as Hpd by (exists (drop (k + j) d); by rewrite take_drop).
    rewrite (hit_missing t n m d) by (try done; by apply Hz).
    rewrite (hit_missing t n m (d ++ [c])) by (try done; apply Hz; by apply prefix_app_r).
    replace (length d - k)%nat with (j + (length d - k - j))%nat by lia.
    rewrite seq_app, fmap_app, nsum_app.
    assert (nsum ((λ i, hit t n mr (take i d)) <$> seq (k + j) (length d - k - j)) = 0%nat) as ->; [|lia].
    assert (∀ l, (∀ i, i ∈ l → (k + j ≤ i)%nat) → nsum ((λ i, hit t n mr (take i d)) <$> l) = 0%nat) as Hl.
    { induction l as [|i l IH]; intros Hi; [done|]. rewrite fmap_cons. unfold nsum in *. simpl.
      rewrite IH by (intros; apply Hi; by right). rewrite hit_missing; try done. apply Hz.
      specialize (Hi i ltac:(left)). exists (drop (k + j) (take i d)).
      replace (take (k + j) d) with (take (k + j) (take i d)) at 1; [by rewrite take_drop|]. rewrite take_take. f_equal. lia. }
    apply Hl. intros i Hi. apply elem_of_seq in Hi. lia.
Qed.
End disp.
