(** * RecReg: how Watch and Stop on the recursive tree change the registrations *)
From Verif Require Import Base Event Watchpoint WatchpointFacts Paths PathsFacts Loop LoopFacts
  Node NodeFacts SpecTree WalkFacts RootFacts NonRec NonRecWp Rec SpecNonRec SpecRec RecFacts.
Local Open Scope N_scope.

Section rec.
Context (P : platform) (HP : platform_ok P) (sepc : ascii) (w : bool) (isvol : str → Prop).
Notation nameof := (nameof sepc w).
Notation renv := (renv P sepc w isvol).
Notation rpath := (rpath sepc w isvol).
Notation wpd := (wpd P).
Notation rinv := (rinv P sepc w isvol).

Lemma rpath_spells E p : renv E → rpath p → spells sepc (e_vol E) w p (nameof p).
Proof.
  intros HE Hp. split; [done|]. pose proof Hp as [Hne Hx]. split.
  { intros H. apply Hne. clear - H. induction p as [|a [|b p] IH]; simpl in H; [done|by apply elem_of_nil in H|].
    apply elem_of_cons in H as [->|H]; [left|right; auto]. }
  pose proof (re_vol _ _ _ _ _ HE p Hp) as Hv. destruct w.
  - destruct Hx as (v&cs&->&?&?&?). exists v, cs. split_and!; try done. intros ->. apply Hne. left.
  - naive_solver.
Qed.
Lemma rpath_ne p : rpath p → p ≠ [].
Proof. intros [_ H]. destruct w; [|by destruct H]. by destruct H as (v&cs&->&_). Qed.

(** ** Finding a watch at or above the path *)
Lemma chain_prefix p q x : (q, x) ∈ chain w p → q `prefix_of` p ∧ x = bool_decide (q = p).
Proof.
  unfold chain. intros (n&[= -> ->]&Hn)%elem_of_list_fmap. apply elem_of_seq in Hn.
  assert (n ≤ length p)%nat as Hl by (destruct w; lia). split.
  - exists (drop n p). by rewrite take_drop.
  - apply bool_decide_ext. split.
    + intros ->. apply take_ge. done.
    + intros H. assert (length (take n p) = length p) as K by (by rewrite H). rewrite take_length in K. lia.
Qed.
Lemma prefix_chain p q : q `prefix_of` p → (w = true → q ≠ []) → (q, bool_decide (q = p)) ∈ chain w p.
Proof.
  intros [r ->] Hne. unfold chain. apply elem_of_list_fmap. exists (length q). split.
  - rewrite take_app. f_equal. apply bool_decide_ext. rewrite app_length. split.
    + intros H. destruct r; [simpl; lia|]. exfalso. assert (length q = length (q ++ l :: r)) as K by (by rewrite <-H).
      rewrite app_length in K. simpl in K. lia.
    + intros H. destruct r; [by rewrite app_nil_r|simpl in H; lia].
  - apply elem_of_seq. rewrite app_length. destruct w.
    + destruct q; [by destruct Hne|]. simpl. lia.
    + lia.
Qed.
Lemma find_along E t l :
  match along (find_fn E t) t None l with
  | (Some (h, x), r) => r = WPOk ∧ watchTotal E t h ≠ 0 ∧ is_Some (t !! h) ∧
      ∃ l1 l2, l = l1 ++ (h, x) :: l2 ∧ ∀ q y, (q, y) ∈ l1 → is_Some (t !! q) ∧ watchTotal E t q = 0
  | (None, WPOk) => ∀ q y, (q, y) ∈ l → is_Some (t !! q) ∧ watchTotal E t q = 0
  | (None, _) => ∃ l1 h x l2, l = l1 ++ (h, x) :: l2 ∧ t !! h = None ∧
      ∀ q y, (q, y) ∈ l1 → is_Some (t !! q) ∧ watchTotal E t q = 0
  end.
Proof.
  induction l as [|[h x] l IH]; cbn [along].
  { intros q y Hq. by apply elem_of_nil in Hq. }
  destruct (t !! h) as [nd|] eqn:Eh; cbn [find_fn].
  2:{ exists [], h, x, l. split_and!; [done|done|]. intros q y Hq. by apply elem_of_nil in Hq. }
  unfold find_fn at 1. destruct (N.eqb_spec (watchTotal E t h) 0) as [Hz|Hz]; cbn [negb].
  - destruct (along (find_fn E t) t None l) as [[[h' x']|] r].
    + destruct IH as (?&?&?&l1&l2&->&H). split_and!; try done. exists ((h, x) :: l1), l2. split; [done|].
      intros q y [[= -> ->]|Hq]%elem_of_cons; [eauto|eauto].
    + destruct r.
      * intros q y [[= -> ->]|Hq]%elem_of_cons; [eauto|eauto].
      * destruct IH as (l1&h'&x'&l2&->&?&H). exists ((h, x) :: l1), h', x', l2. split_and!; try done.
        intros q y [[= -> ->]|Hq]%elem_of_cons; [eauto|eauto].
      * destruct IH as (l1&h'&x'&l2&->&?&H). exists ((h, x) :: l1), h', x', l2. split_and!; try done.
        intros q y [[= -> ->]|Hq]%elem_of_cons; [eauto|eauto].
  - split_and!; [done|done|eauto|]. exists [], l. split; [done|]. intros q y Hq. by apply elem_of_nil in Hq.
Qed.
Lemma watchTotal_missing E t q : closed t → t !! q = None → watchTotal E t q = 0.
Proof.
  intros Hc Hq. unfold watchTotal. assert (wp_at t q = ∅) as -> by (unfold wp_at; by rewrite Hq).
  assert (wp_at t (inact q) = ∅) as ->.
  { unfold wp_at. destruct (t !! inact q) eqn:Ei; [|done]. destruct (Hc q []); [|congruence]. unfold inact in Ei. eauto. }
  rewrite map_size_empty. simpl. unfold wtotal, wget. rewrite lookup_empty. done.
Qed.
Lemma chain_sorted p a h x l2 q y : chain w p = a ++ (h, x) :: l2 → (q, y) ∈ l2 → h `prefix_of` q.
Proof.
  unfold chain. set (k := if w then 1%nat else 0%nat). set (f := λ n, (take n p, bool_decide (n = length p))).
  intros E Hq. apply elem_of_list_lookup in Hq as [j Hj].
  assert ((f <$> seq k (S (length p) - k)) !! length a = Some (h, x)) as H1.
  { rewrite E, lookup_app_r, Nat.sub_diag by lia. done. }
  assert ((f <$> seq k (S (length p) - k)) !! (length a + S j)%nat = Some (q, y)) as H2.
  { rewrite E, lookup_app_r by lia. replace (length a + S j - length a)%nat with (S j) by lia. done. }
  rewrite list_lookup_fmap in H1, H2.
  destruct (seq k (S (length p) - k) !! length a) as [n1|] eqn:E1; [|done].
  destruct (seq k (S (length p) - k) !! (length a + S j)%nat) as [n2|] eqn:E2; [|done].
  apply lookup_seq in E1 as [-> _]. apply lookup_seq in E2 as [-> _]. injection H1 as <- _. injection H2 as <- _.
  exists (drop (k + length a) (take (k + (length a + S j)) p)).
  replace (take (k + length a) p) with (take (k + length a) (take (k + (length a + S j)) p)) at 1; [by rewrite take_drop|].
  rewrite take_take. f_equal. lia.
Qed.
Lemma find_spec E t p :
  renv E → rinv t → rpath p →
  match find_parent E t (nameof p) with
  | Some (h, self) => h `prefix_of` p ∧ self = bool_decide (h = p) ∧ watchTotal E t h ≠ 0 ∧ is_Some (t !! h) ∧
      ∀ q, above q h → (w = true → q ≠ []) → watchTotal E t q = 0
  | None => ∀ q, q `prefix_of` p → (w = true → q ≠ []) → watchTotal E t q = 0
  end.
Proof.
  intros HE Ht Hp. unfold find_parent. rewrite (re_sep _ _ _ _ _ HE).
  rewrite (r_walkpath_spec sepc (e_vol E) w (find_fn E t) t None p (nameof p) (ri_wf _ _ _ _ _ Ht) (rpath_spells E p HE Hp)).
  pose proof (rinv_closed _ _ _ _ _ Ht) as Hcl.
  pose proof (find_along E t (chain w p)) as H. destruct (along (find_fn E t) t None (chain w p)) as [[[h x]|] r].
  - destruct H as (->&H1&H2&l1&l2&Hc&H3).
    assert ((h, x) ∈ chain w p) as Hin by (rewrite Hc; set_solver).
    destruct (chain_prefix _ _ _ Hin) as [Hpre ->]. split_and!; try done.
    intros q [Hq Hne] Hw. assert ((q, bool_decide (q = p)) ∈ chain w p) as Hq'.
    { apply prefix_chain; [|done]. by etrans. }
    rewrite Hc in Hq'. apply elem_of_app in Hq' as [Hq'|Hq']; [by eapply H3|].
    apply elem_of_cons in Hq' as [[= -> _]|Hq']; [done|]. exfalso.
    pose proof (chain_sorted _ _ _ _ _ _ _ Hc Hq') as K. apply Hne. by apply (anti_symm prefix).
  - destruct r.
    + intros q Hq Hw. by apply (H q _ (prefix_chain p q Hq Hw)).
    + destruct H as (l1&h&x&l2&Hc&H1&H2). intros q Hq Hw. pose proof (prefix_chain p q Hq Hw) as Hq'.
      rewrite Hc in Hq'. apply elem_of_app in Hq' as [Hq'|Hq']; [by eapply H2|].
      apply elem_of_cons in Hq' as [[= -> _]|Hq']; [by apply watchTotal_missing|].
      pose proof (chain_sorted _ _ _ _ _ _ _ Hc Hq') as K. apply watchTotal_missing; [done|].
      destruct (t !! q) eqn:Eq; [|done]. destruct (closed_prefix t h q Hcl K); [eauto|congruence].
    + destruct H as (l1&h&x&l2&Hc&H1&H2). intros q Hq Hw. pose proof (prefix_chain p q Hq Hw) as Hq'.
      rewrite Hc in Hq'. apply elem_of_app in Hq' as [Hq'|Hq']; [by eapply H2|].
      apply elem_of_cons in Hq' as [[= -> _]|Hq']; [by apply watchTotal_missing|].
      pose proof (chain_sorted _ _ _ _ _ _ _ Hc Hq') as K. apply watchTotal_missing; [done|].
      destruct (t !! q) eqn:Eq; [|done]. destruct (closed_prefix t h q Hcl K); [eauto|congruence].
Qed.

(** Adding the node. *)
Lemma rec_add_spec E t p :
  renv E → rinv t → rpath p →
  ∃ t', r_add (e_sep E) (e_vol E) t (nameof p) = (t', Some p) ∧ rinv t' ∧ is_Some (t' !! p) ∧
    (∀ q, is_Some (t !! q) → t' !! q = t !! q) ∧ (∀ q, wp_at t' q = wp_at t q) ∧
    (∀ q, is_Some (t' !! q) → is_Some (t !! q) ∨ q `prefix_of` p).
Proof.
  intros HE Ht Hp. rewrite (re_sep _ _ _ _ _ HE). pose proof (rpath_spells E p HE Hp) as Hsp.
  destruct (r_add_spec sepc (e_vol E) w t p _ (ri_wf _ _ _ _ _ Ht) Hsp) as [H1 H2].
  pose proof (tree_wf_add sepc (e_vol E) w t p _ (ri_wf _ _ _ _ _ Ht) Hsp) as Hwf.
  destruct (r_add sepc (e_vol E) t (nameof p)) as [t' o]. cbn [fst snd] in *. subst o.
  exists t'. split_and!; [done| | | | |].
  - split; [done|]. intros q nd Hq Hne. rewrite H2 in Hq. destruct (t !! q) as [nd'|] eqn:Eq.
    + injection Hq as ->. by eapply ri_node.
    + case_decide; [|done]. injection Hq as <-. exists ∅. split_and!; [done|apply wpd_empty|done].
  - rewrite H2. destruct (t !! p); [eauto|]. rewrite decide_True; [eauto|]. split; [by apply rpath_ne|done].
  - intros q [nd Hq]. rewrite H2, Hq. done.
  - intros q. unfold wp_at. rewrite H2. destruct (t !! q); [done|]. by case_decide.
  - intros q. rewrite H2. destruct (t !! q); [eauto|]. case_decide; [|by intros []]. naive_solver.
Qed.

(** ** Watch *)
Notation rureg := rureg.
(** What a Watch of [n] on [p] with outcome [r] does to the registrations. *)
Definition wreg (t : tree) (p : path) (n : positive) (e : N) (r : result) (t' : tree) : Prop :=
  rinv t' ∧
  (∀ q m, [] ∉ q → (q, m) ≠ (p, n) → rureg t' q m = rureg t q m) ∧
  match r with
  | ROk => rureg t' p n = rureg t p n .| e
  | _ => (incl_ev (rureg t p n) (rureg t' p n) ∨ incl_ev (rureg t p n) (recursive P)) ∧
         incl_ev (rureg t' p n) (rureg t p n .| e)
  end.

Section ops.
Context (E : env) (HE : renv E) (n : positive) (e : N) (Hu : u32 e) (Ho : disj_ev e (omit P)).
Notation c := (KUser n).

Lemma add_put s p :
  rinv (st_tree s) → rpath p → is_Some (st_tree s !! p) →
  rinv (st_tree (rwatchAdd E s p c e).1) ∧ is_Some (st_tree (rwatchAdd E s p c e).1 !! p) ∧
  (∀ q, is_Some (st_tree s !! q) → is_Some (st_tree (rwatchAdd E s p c e).1 !! q)) ∧
  (∀ q, wp_at (st_tree (rwatchAdd E s p c e).1) q =
     if decide (q = p) then (wadd P (wp_at (st_tree s) p) c e).1 else wp_at (st_tree s) q) ∧
  st_panic (rwatchAdd E s p c e).1 = st_panic s ∧ st_log (rwatchAdd E s p c e).1 = st_log s.
Proof.
  intros Ht Hp Hs. assert ([] ∉ p) as Hne by apply Hp.
  destruct (rwatchAdd_put P sepc w isvol E s p c e (re_plat _ _ _ _ _ HE) Ht Hne Hs) as (H1&H2&H3).
  rewrite H1. split_and!; try done.
  - apply rinv_set_wp; [done..| |done]. apply wpd_wadd; [by eapply rinv_wp|done|done].
  - by apply set_wp_is_Some.
  - intros q. rewrite set_wp_is_Some. done.
  - intros q. rewrite wp_at_set_wp. destruct (decide (q = p)) as [->|Hq].
    + by rewrite decide_True.
    + rewrite decide_False; [done|]. naive_solver.
Qed.
Lemma add_wreg s p :
  rinv (st_tree s) → rpath p → is_Some (st_tree s !! p) →
  wreg (st_tree s) p n e ROk (st_tree (rwatchAdd E s p c e).1).
Proof.
  intros Ht Hp Hs. destruct (add_put s p Ht Hp Hs) as (H1&_&_&H2&_). split_and!; [done| |].
  - intros q m Hq Hne. unfold RecFacts.rureg. rewrite H2. destruct (decide (q = p)) as [->|Hqp]; [|done].
    rewrite rureg_wadd. rewrite decide_False; [done|]. intros ->. done.
  - unfold RecFacts.rureg. rewrite H2, decide_True by done. rewrite rureg_wadd. by rewrite decide_True.
Qed.
Lemma wreg_quiet s1 s2 s3 p r : quiet s1 s2 → [] ∉ p → wreg (st_tree s2) p n e r (st_tree s3) → wreg (st_tree s1) p n e r (st_tree s3).
Proof.
  intros Hq Hp (H1&H2&H3).
  assert (∀ q m, [] ∉ q → rureg (st_tree s2) q m = rureg (st_tree s1) q m) as Hr.
  { intros q m Hq0. unfold RecFacts.rureg. by rewrite (same_plain_wp (st_tree s1)) by (done || apply Hq). }
  split_and!; [done| |].
  - intros q m Hq0 Hne. rewrite H2 by done. by apply Hr.
  - by rewrite <-(Hr p n Hp).
Qed.
Lemma wreg_quiet_r s1 s2 s3 p r : quiet s2 s3 → [] ∉ p → wreg (st_tree s1) p n e r (st_tree s2) → wreg (st_tree s1) p n e r (st_tree s3).
Proof.
  intros Hq Hp (H1&H2&H3).
  assert (∀ q m, [] ∉ q → rureg (st_tree s3) q m = rureg (st_tree s2) q m) as Hr.
  { intros q m Hq0. unfold RecFacts.rureg. by rewrite (same_plain_wp (st_tree s2)) by (done || apply Hq). }
  split_and!; [by eapply quiet_rinv| |].
  - intros q m Hq0 Hne. rewrite Hr by done. by apply H2.
  - by rewrite (Hr p n Hp).
Qed.
Lemma wreg_weaken t p t' : wreg t p n e ROk t' → wreg t p n e RErr t'.
Proof.
  intros (H1&H2&H3). split_and!; try done; [left|]; rewrite H3; clear; bits.
Qed.
(** Adding twice is adding once. *)
Lemma add_add_wreg s1 s2 p :
  wreg (st_tree s1) p n e ROk (st_tree s2) → rpath p → is_Some (st_tree s2 !! p) →
  wreg (st_tree s1) p n e ROk (st_tree (rwatchAdd E s2 p c e).1).
Proof.
  intros (H1&H2&H3) Hp Hs. destruct (add_wreg s2 p H1 Hp Hs) as (K1&K2&K3). split_and!; [done| |].
  - intros q m Hq Hne. rewrite K2 by done. by apply H2.
  - rewrite K3, H3. clear. bits.
Qed.
(** Undoing after a failed call. *)
Lemma del_rureg s h x q m :
  rinv (st_tree s) → [] ∉ h → is_Some (st_tree s !! h) → [] ∉ q →
  rinv (st_tree (rwatchDel E s h c x).1) ∧
  rureg (st_tree (rwatchDel E s h c x).1) q m =
    if decide (q = h ∧ m = n) then rureg (st_tree s) q m .&^ x else rureg (st_tree s) q m.
Proof.
  intros Ht Hh Hs Hq.
  destruct (rwatchDel_put P sepc w isvol E s h c x (re_plat _ _ _ _ _ HE) Ht Hh Hs) as (H1&H2&_). split.
  - eapply put_rinv; [exact H1|done|done| |].
    + apply wpd_wdel. by eapply rinv_wp.
    + intros Hne. eapply rinv_rpath; [exact Ht|done|]. intros Hz. apply Hne. rewrite Hz.
      apply map_eq. intros k. rewrite lookup_empty. destruct (decide (k = KNil)) as [->|Hk].
      * pose proof (wdel_agg P ∅ c x ltac:(done)) as Ha. unfold agg_ok in Ha. rewrite Ha.
        rewrite bool_decide_true; [done|]. apply map_eq. intros k'. rewrite lookup_empty.
        destruct (decide (k' = KNil)) as [->|Hk']; [by rewrite lookup_delete|].
        rewrite lookup_delete_ne, wdel_get by done. unfold wget. rewrite lookup_empty. by destruct (bool_decide (k' = c)).
      * rewrite wdel_get by done. unfold wget. rewrite lookup_empty. by destruct (bool_decide (k = c)).
  - unfold RecFacts.rureg. rewrite (put_wp s h _ _ q H1) by done. destruct (decide (q = h)) as [->|Hne].
    + rewrite rureg_wdel. destruct (decide (m = n)) as [->|Hm].
      * by rewrite decide_True.
      * rewrite decide_False by naive_solver. done.
    + rewrite decide_False by naive_solver. done.
Qed.

(** The events a failed call takes back were not held at the node before. *)
Lemma norm_event a b i : has (diff_event (norm a b)) i → has b i ∧ ¬ has a i.
Proof.
  unfold norm. destruct (N.eqb_spec a b) as [->|].
  - intros H. unfold diff_event in H. cbn in H. by apply has_0 in H.
  - unfold diff_event. cbn [fst snd]. by rewrite has_ldiff.
Qed.
Lemma strip_event a b i : has (diff_event (strip_diff P a b)) i → has b i ∧ ¬ has (internal P) i ∧ ¬ has a i.
Proof.
  unfold strip_diff. destruct (N.eqb_spec (a .&^ internal P) (b .&^ internal P)) as [Hz|Hz].
  - intros H. unfold diff_event in H. cbn in H. by apply has_0 in H.
  - unfold diff_event. cbn [fst snd]. rewrite !has_ldiff. tauto.
Qed.
Lemma strip_snd a b i : has (strip_diff P a b).2 i → ¬ has (internal P) i.
Proof.
  unfold strip_diff. destruct (N.eqb_spec (a .&^ internal P) (b .&^ internal P)) as [Hz|Hz].
  - intros H. cbn in H. by apply has_0 in H.
  - cbn [fst snd]. rewrite has_ldiff. tauto.
Qed.
Lemma wtotal_int wp i : has (wtotal P wp) i → ¬ has (internal P) i.
Proof. unfold wtotal. rewrite has_ldiff. tauto. Qed.
Lemma add_event s p i :
  rinv (st_tree s) → rpath p → is_Some (st_tree s !! p) →
  has (diff_event (rwatchAdd E s p c e).2) i →
  ¬ has (internal P) i ∧ ¬ has (wget (wp_at (st_tree s) p) KNil) i.
Proof.
  intros Ht Hp Hs. unfold rwatchAdd, node_wadd. rewrite (re_plat _ _ _ _ _ HE).
  destruct (wadd P (wp_at (st_tree s) p) c e) as [wp d] eqn:Ew. rewrite (rinv_some _ _ _ _ _ _ Ht (proj1 Hp) Hs).
  assert (d = strip_diff P (wget (wp_at (st_tree s) p) KNil) (wget (wp_at (st_tree s) p) KNil .| e)) as ->.
  { unfold wadd in Ew. injection Ew as _ <-. by rewrite wget_insert_ne. }
  destruct (size _ =? 0)%nat; cbn [snd].
  - intros H. apply strip_event in H. tauto.
  - intros H. apply norm_event in H as [H1 H2]. rewrite has_lor in H1, H2.
    destruct H1 as [H1|H1]; [|tauto]. assert (has (diff_event (strip_diff P (wget (wp_at (st_tree s) p) KNil) (wget (wp_at (st_tree s) p) KNil .| e))) i) as H3.
    { unfold diff_event. apply has_ldiff. tauto. }
    apply strip_event in H3. tauto.
Qed.
Lemma addInactive_event s h i :
  [] ∉ h → is_Some (st_tree s !! h) →
  has (diff_event (watchAddInactive E s h c e).2) i →
  ¬ has (internal P) i ∧ ¬ has (wget (wp_at (st_tree s) h) KNil) i.
Proof.
  intros Hh Hs. pose proof (quiet_addInactive E s h c e Hs) as Hq. unfold watchAddInactive in *.
  set (s1 := match st_tree s !! inact h ≫= nwatch with Some _ => s | None => _ end) in *.
  unfold node_wadd in *. rewrite (re_plat _ _ _ _ _ HE) in *.
  destruct (wadd P (wp_at (st_tree s1) (inact h)) c e) as [wp d] eqn:Ew.
  set (s2 := with_tree s1 (set_wp (st_tree s1) (inact h) wp)) in *.
  assert (d = strip_diff P (wget (wp_at (st_tree s1) (inact h)) KNil) (wget (wp_at (st_tree s1) (inact h)) KNil .| e)) as Hd.
  { unfold wadd in Ew. injection Ew as _ <-. by rewrite wget_insert_ne. }
  assert (∀ s3, quiet s s3 → has (diff_event (norm (d.1 .| wtotal P (wp_at (st_tree s3) h)) (d.2 .| wtotal P (wp_at (st_tree s3) h)))) i →
    ¬ has (internal P) i ∧ ¬ has (wget (wp_at (st_tree s) h) KNil) i) as Hx.
  { intros s3 Hq3. rewrite (same_plain_wp (st_tree s) (st_tree s3)) by (done || apply Hq3).
    intros H. apply norm_event in H as [H1 H2]. rewrite has_lor in H1, H2. destruct H1 as [H1|H1]; [|tauto].
    rewrite Hd in H1. apply strip_snd in H1. split; [done|]. intros H3. apply H2. right.
    unfold wtotal. rewrite has_ldiff. tauto. }
  destruct (st_tree s1 !! inact h ≫= nwatch); cbn [fst snd] in *; apply Hx; exact Hq.
Qed.

Lemma case1_wreg s p h isrec s' r :
  rinv (st_tree s) → rpath p → is_Some (st_tree s !! p) → [] ∉ h → is_Some (st_tree s !! h) →
  case1 E s p h (bool_decide (h = p)) isrec c e = (s', r) → st_panic s' = false →
  wreg (st_tree s) p n e r (st_tree s').
Proof.
  intros Ht Hp Hs Hh Hsh. assert ([] ∉ p) as Hpne by apply Hp. unfold case1. destruct (bool_decide (h = p)) eqn:Eself.
  - apply bool_decide_eq_true in Eself as ->.
    destruct (add_put s p Ht Hp Hs) as (Ht1&Hs1&Hss1&Hwp1&_). pose proof (add_wreg s p Ht Hp Hs) as Hw1.
    assert (∀ i, has (diff_event (rwatchAdd E s p c e).2) i → ¬ has (internal P) i ∧ ¬ has (wget (wp_at (st_tree s) p) KNil) i) as Hev
      by (intros i; by apply add_event).
    destruct (rwatchAdd E s p c e) as [s1 d] eqn:Eadd. cbn [fst snd] in *.
    destruct (is_none d). { intros [= <- <-] _. done. }
    destruct (N.eqb_spec d.1 0). { intros [= <- <-] Hpan. done. }
    set (call := if isrec || watchIsRecursive E (st_tree s1) p then _ else _).
    assert (∃ s2 ok, call = (s2, ok) ∧ quiet s1 s2) as (s2&ok&Ec&Hq).
    { unfold call. destruct (isrec || watchIsRecursive E (st_tree s1) p); eexists _, _; (split; [done|]); by apply quiet_tree. }
    rewrite Ec. destruct ok.
    + intros [= <- <-] _. apply add_add_wreg; [|done|].
      * by eapply wreg_quiet_r.
      * eapply same_plain_some; [apply Hq|done|done].
    + intros [= <- <-] _.
      assert (rinv (st_tree s2)) as Ht2 by (by eapply quiet_rinv).
      assert (is_Some (st_tree s2 !! p)) as Hs2 by (eapply same_plain_some; [apply Hq|done|done]).
      pose proof (λ q m Hq0, del_rureg s2 p (diff_event d) q m Ht2 Hpne Hs2 Hq0) as Hdel.
      apply (wreg_quiet_r s s1 s2 p ROk Hq Hpne) in Hw1 as (K1&K2&K3). split_and!.
      * by apply (Hdel p n).
      * intros q m Hq0 Hne. destruct (Hdel q m Hq0) as [_ ->]. rewrite decide_False by naive_solver. by apply K2.
      * destruct (Hdel p n Hpne) as [_ ->]. rewrite decide_True, K3 by done.
        pose proof (wpd_get P (wp_at (st_tree s) p) n) as Hi. specialize (Hi ltac:(by eapply rinv_wp)).
        fold (rureg (st_tree s) p n) in Hi. left. intros i X1. rewrite has_ldiff, has_lor.
        split; [by left|]. intros X3. apply Hev in X3 as [_ X3]. apply X3. by apply Hi.
      * destruct (Hdel p n Hpne) as [_ ->]. rewrite decide_True, K3 by done. clear. bits.
  - apply bool_decide_eq_false in Eself.
    pose proof (quiet_addInactive E s h c e Hsh) as Hq1.
    assert (∀ i, has (diff_event (watchAddInactive E s h c e).2) i → ¬ has (internal P) i ∧ ¬ has (wget (wp_at (st_tree s) h) KNil) i) as Hev
      by (intros i; by apply addInactive_event).
    destruct (watchAddInactive E s h c e) as [s1 d] eqn:Eadd. cbn [fst snd] in *.
    assert (rinv (st_tree s1)) as Ht1 by (by eapply quiet_rinv).
    assert (is_Some (st_tree s1 !! p)) as Hs1 by (eapply same_plain_some; [apply Hq1|done|done]).
    destruct (is_none d).
    { intros [= <- <-] _. eapply wreg_quiet; [exact Hq1|done|]. by apply add_wreg. }
    destruct (N.eqb_spec d.1 0). { intros [= <- <-] Hpan. done. }
    set (call := if isrec || watchIsRecursive E (st_tree s1) h then _ else _).
    assert (∃ s2 ok, call = (s2, ok) ∧ quiet s1 s2) as (s2&ok&Ec&Hq).
    { unfold call. destruct (isrec || watchIsRecursive E (st_tree s1) h); eexists _, _; (split; [done|]); by apply quiet_tree. }
    rewrite Ec.
    assert (rinv (st_tree s2)) as Ht2 by (by eapply quiet_rinv).
    assert (is_Some (st_tree s2 !! p)) as Hs2 by (eapply same_plain_some; [apply Hq|done|done]).
    assert (is_Some (st_tree s2 !! h)) as Hsh2.
    { eapply same_plain_some; [apply Hq|done|]. eapply same_plain_some; [apply Hq1|done|done]. }
    assert (quiet s s2) as Hq2 by (by eapply quiet_trans).
    destruct ok.
    + intros [= <- <-] _. eapply wreg_quiet; [exact Hq2|done|]. by apply add_wreg.
    + intros [= <- <-] _.
      pose proof (λ q m Hq0, del_rureg s2 h (diff_event d) q m Ht2 Hh Hsh2 Hq0) as Hdel.
      assert (∀ q m, [] ∉ q → rureg (st_tree s2) q m = rureg (st_tree s) q m) as Hr.
      { intros q m Hq0. unfold RecFacts.rureg. by rewrite (same_plain_wp (st_tree s)) by (done || apply Hq2). }
      assert (∀ q m, [] ∉ q → rureg (st_tree (rwatchDel E s2 h c (diff_event d)).1) q m = rureg (st_tree s) q m) as Hr'.
      { intros q m Hq0. destruct (Hdel q m Hq0) as [_ ->]. rewrite !Hr by done. destruct (decide (q = h ∧ m = n)) as [[-> ->]|]; [|done].
        pose proof (wpd_get P (wp_at (st_tree s) h) n) as Hi. specialize (Hi ltac:(by eapply rinv_wp)).
        fold (rureg (st_tree s) h n) in Hi. apply has_ext. intros i. rewrite has_ldiff. split; [tauto|]. intros X. split; [done|].
        intros X3. apply Hev in X3 as [_ X3]. apply X3. by apply Hi. }
      split_and!.
      * by apply (Hdel p n).
      * intros q m Hq0 _. by apply Hr'.
      * left. rewrite Hr' by done. clear. bits.
      * rewrite Hr' by done. clear. bits.
Qed.

(** Collecting the children changes nothing. *)
Lemma collect_tree s h : st_tree (collect E s h).1 = st_tree s ∧ st_log (collect E s h).1 = st_log s ∧ st_panic (collect E s h).1 = st_panic s.
Proof.
  unfold collect. destruct (loop (collect_step E) (S (size (st_tree s))) (s, []) [h]) as [[s' l'] r] eqn:El.
  cbn [fst]. set (Q := λ x : st * list path, st_tree x.1 = st_tree s ∧ st_log x.1 = st_log s ∧ st_panic x.1 = st_panic s).
  assert (∀ x h x' y, Q x → collect_step E x h = (x', y) → Q x') as Hstep.
  { intros [s0 l0] h0 [s1 l1] y (H1&H2&H3) Hst. unfold collect_step in Hst. cbn [range_children] in Hst.
    destruct (size _ =? 0)%nat; injection Hst; intros; subst; by split_and!. }
  assert (Q (s, [])) as H0 by (by split_and!).
  pose proof (loop_ind (collect_step E) (λ x _, Q x) Q _ _ _ _ _
    (λ x h _ x' l Hq Hs, Hstep x h x' _ Hq Hs) (λ x h _ x' Hq Hs, Hstep x h x' _ Hq Hs) H0 El) as H.
  destruct r; [exact H|exact H|by destruct H as [? H]].
Qed.

Lemma clean2_rureg s p q m :
  rinv (st_tree s) → rpath p → is_Some (st_tree s !! p) → [] ∉ q →
  rinv (st_tree (clean2 s p c)) ∧
  rureg (st_tree (clean2 s p c)) q m = if decide (q = p ∧ m = n) then 0 else rureg (st_tree s) q m.
Proof.
  intros Ht Hp Hs Hq. assert ([] ∉ p) as Hpne by apply Hp. unfold clean2. cbn [with_tree st_tree].
  set (t1 := <[inact p := Node [] None]> (st_tree s)).
  assert (same_plain (st_tree s) t1) as Hsp by apply same_plain_ins_inact.
  assert (rinv t1) as Ht1.
  { eapply rinv_same; [exact Ht|done|]. apply closed_ins_inact; [by eapply rinv_closed|done]. }
  assert (is_Some (t1 !! p)) as Hs1 by (by eapply same_plain_some). split.
  - apply rinv_set_wp; [done|done| |done]. apply wpd_delete. by eapply rinv_wp.
  - unfold RecFacts.rureg. rewrite wp_at_set_wp. destruct (decide (q = p)) as [->|Hne].
    + rewrite (decide_True (P := p = p ∧ is_Some (t1 !! p))) by done. rewrite (same_plain_wp (st_tree s) t1) by done.
      destruct (decide (m = n)) as [->|Hm].
      * rewrite decide_True by done. by rewrite wget_delete.
      * rewrite decide_False by naive_solver. rewrite wget_delete_ne; [done|]. congruence.
    + rewrite !decide_False by naive_solver. by rewrite (same_plain_wp (st_tree s) t1).
Qed.
Lemma clean2_wreg s s1 p :
  wreg (st_tree s) p n e ROk (st_tree s1) → incl_ev (rureg (st_tree s) p n) (recursive P) →
  rpath p → is_Some (st_tree s1 !! p) →
  wreg (st_tree s) p n e RErr (st_tree (clean2 s1 p c)).
Proof.
  intros (H1&H2&H3) Hi Hp Hs. pose proof (λ q m Hq, clean2_rureg s1 p q m H1 Hp Hs Hq) as Hc. split_and!.
  - by apply (Hc p n), Hp.
  - intros q m Hq Hne. destruct (Hc q m Hq) as [_ ->]. rewrite decide_False by naive_solver. by apply H2.
  - by right.
  - destruct (Hc p n (proj1 Hp)) as [_ ->]. rewrite decide_True by done. clear. bits.
Qed.
Lemma case2_one_wreg s p k s' r :
  rinv (st_tree s) → rpath p → is_Some (st_tree s !! p) → incl_ev (rureg (st_tree s) p n) (recursive P) →
  case2_one E s p k c e = (s', r) → wreg (st_tree s) p n e r (st_tree s').
Proof.
  intros Ht Hp Hs Hi. assert ([] ∉ p) as Hpne by apply Hp. unfold case2_one.
  destruct (add_put s p Ht Hp Hs) as (Ht1&Hs1&_). pose proof (add_wreg s p Ht Hp Hs) as Hw1.
  set (s1 := (rwatchAdd E s p c e).1) in *.
  pose proof (quiet_copy E s1 k p Hpne Hs1) as Hq. set (s2 := watchCopy E s1 k p) in *.
  destruct (wcallf _ _ _) as [s3 ok] eqn:Ec. apply quiet_call in Ec.
  assert (quiet s1 s3) as Hq3 by (by eapply quiet_trans).
  assert (is_Some (st_tree s3 !! p)) as Hs3 by (eapply same_plain_some; [apply Hq3|done|done]).
  apply (wreg_quiet_r s s1 s3 p ROk Hq3 Hpne) in Hw1.
  destruct ok; intros [= <- <-]; [done|]. by apply clean2_wreg.
Qed.
Lemma unwatch_children_quiet l : ∀ s r s' r', foldl (λ '(s, r) k,
    let nm := name_at (st_tree s) k in
    let '(s, ok) := if watchIsRecursive E (st_tree s) k then wcallf E s (WRecUnwatch nm)
                    else wcallf E s (WUnwatch nm) in
    (s, if ok then r else RErr)) (s, r) l = (s', r') → quiet s s' ∧ (r' = r ∨ r' = RErr).
Proof.
  induction l as [|k l IH]; intros s r s' r'; cbn [foldl].
  - intros [= <- <-]. split; [apply quiet_refl|by left].
  - cbv zeta. destruct (watchIsRecursive E (st_tree s) k).
    + destruct (wcallf E s (WRecUnwatch (name_at (st_tree s) k))) as [s1 ok] eqn:Ec. intros H.
      apply IH in H as [H1 H2]. split; [eapply quiet_trans; [by eapply quiet_call|done]|]. destruct ok; [done|naive_solver].
    + destruct (wcallf E s (WUnwatch (name_at (st_tree s) k))) as [s1 ok] eqn:Ec. intros H.
      apply IH in H as [H1 H2]. split; [eapply quiet_trans; [by eapply quiet_call|done]|]. destruct ok; [done|naive_solver].
Qed.
Lemma case2_many_wreg s p l s' r :
  rinv (st_tree s) → rpath p → is_Some (st_tree s !! p) → incl_ev (rureg (st_tree s) p n) (recursive P) →
  case2_many E s p l c e = (s', r) → wreg (st_tree s) p n e r (st_tree s').
Proof.
  intros Ht Hp Hs Hi. assert ([] ∉ p) as Hpne by apply Hp. unfold case2_many.
  destruct (add_put s p Ht Hp Hs) as (Ht1&Hs1&_). pose proof (add_wreg s p Ht Hp Hs) as Hw1.
  set (s1 := (rwatchAdd E s p c e).1) in *.
  assert (∀ l s0, is_Some (st_tree s0 !! p) → quiet s0 (foldl (λ s k, watchCopy E s k p) s0 l)) as Hcp.
  { intros l0. induction l0 as [|k l0 IH]; intros s0 Hs0; [apply quiet_refl|]. cbn [foldl].
    pose proof (quiet_copy E s0 k p Hpne Hs0) as K. eapply quiet_trans; [exact K|]. apply IH.
    eapply same_plain_some; [apply K|done|done]. }
  specialize (Hcp l s1 Hs1). set (s2 := foldl _ s1 l) in *.
  destruct (wcallf _ _ _) as [s3 ok] eqn:Ec. apply quiet_call in Ec.
  assert (quiet s1 s3) as Hq3 by (by eapply quiet_trans).
  assert (is_Some (st_tree s3 !! p)) as Hs3 by (eapply same_plain_some; [apply Hq3|done|done]).
  apply (wreg_quiet_r s s1 s3 p ROk Hq3 Hpne) in Hw1.
  destruct ok.
  - intros H. unfold unwatch_children in H. apply unwatch_children_quiet in H as [H1 H2].
    destruct H2 as [->| ->].
    + by eapply wreg_quiet_r.
    + apply wreg_weaken. by eapply wreg_quiet_r.
  - intros [= <- <-]. by apply clean2_wreg.
Qed.
Lemma case3_wreg s p isrec s' r :
  rinv (st_tree s) → rpath p → is_Some (st_tree s !! p) →
  case3 E s p isrec c e = (s', r) → st_panic s' = false → wreg (st_tree s) p n e r (st_tree s').
Proof.
  intros Ht Hp Hs. assert ([] ∉ p) as Hpne by apply Hp. unfold case3.
  destruct (add_put s p Ht Hp Hs) as (Ht1&Hs1&Hss1&Hwp1&_). pose proof (add_wreg s p Ht Hp Hs) as Hw1.
  assert (∀ i, has (diff_event (rwatchAdd E s p c e).2) i → ¬ has (internal P) i ∧ ¬ has (wget (wp_at (st_tree s) p) KNil) i) as Hev
    by (intros i; by apply add_event).
  destruct (rwatchAdd E s p c e) as [s1 d] eqn:Eadd. cbn [fst snd] in *.
  destruct (is_none d). { intros [= <- <-] Hpan. done. }
  destruct (N.eqb_spec d.1 0). 2:{ intros [= <- <-] Hpan. done. }
  set (call := if isrec then wcallf _ _ _ else _).
  assert (∃ s2 ok, call = (s2, ok) ∧ quiet s1 s2) as (s2&ok&Ec&Hq).
  { unfold call. destruct isrec; eexists _, _; (split; [done|]); by apply quiet_tree. }
  rewrite Ec. destruct ok.
  - intros [= <- <-] _. by eapply wreg_quiet_r.
  - intros [= <- <-] _.
    assert (rinv (st_tree s2)) as Ht2 by (by eapply quiet_rinv).
    assert (is_Some (st_tree s2 !! p)) as Hs2 by (eapply same_plain_some; [apply Hq|done|done]).
    pose proof (λ q m Hq0, del_rureg s2 p (diff_event d) q m Ht2 Hpne Hs2 Hq0) as Hdel.
    apply (wreg_quiet_r s s1 s2 p ROk Hq Hpne) in Hw1 as (K1&K2&K3). split_and!.
    + by apply (Hdel p n).
    + intros q m Hq0 Hne. destruct (Hdel q m Hq0) as [_ ->]. rewrite decide_False by naive_solver. by apply K2.
    + destruct (Hdel p n Hpne) as [_ ->]. rewrite decide_True, K3 by done.
      pose proof (wpd_get P (wp_at (st_tree s) p) n) as Hi. specialize (Hi ltac:(by eapply rinv_wp)).
      fold (rureg (st_tree s) p n) in Hi. left. intros i X1. rewrite has_ldiff, has_lor.
      split; [by left|]. intros X3. apply Hev in X3 as [_ X3]. apply X3. by apply Hi.
    + destruct (Hdel p n Hpne) as [_ ->]. rewrite decide_True, K3 by done. clear. bits.
Qed.
End ops.

Lemma total0_rureg E t p n : renv E → rinv t → rpath p → watchTotal E t p = 0 → incl_ev (rureg t p n) (recursive P).
Proof.
  intros HE Ht Hp Hz. assert (wtotal P (wp_at t p) = 0) as Hw.
  { unfold watchTotal in Hz. rewrite (re_plat _ _ _ _ _ HE) in Hz. destruct (size _ =? 0)%nat; [done|]. clear - Hz. bits. }
  pose proof (rinv_wp P sepc w isvol t p Ht (proj1 Hp)) as Hwp.
  pose proof (wpd_get P _ n Hwp) as Hi. pose proof (wpd_get_omit P _ n Hwp) as Ho. unfold RecFacts.rureg.
  unfold wtotal, internal in Hw. clear - Hw Hi Ho. bits.
Qed.
Lemma rec_Watch_wreg E s p isrec n e s' r :
  renv E → rinv (st_tree s) → rpath p → u32 e → user_ev P e →
  rec_Watch E s (nameof p) isrec (KUser n) e = (s', r) → st_panic s' = false →
  wreg (st_tree s) p n (e .| rec_bit P isrec) r (st_tree s').
Proof.
  intros HE Ht Hp Hu Hue. unfold rec_Watch. rewrite (re_plat _ _ _ _ _ HE).
  set (e' := if isrec then e .| recursive P else e).
  assert (e' = e .| rec_bit P isrec) as <- by (unfold e', rec_bit; destruct isrec; [done|by rewrite N.lor_0_r]).
  assert (u32 e') as Hu'.
  { unfold e'. destruct isrec; [|done]. apply u32_lor; [done|]. by apply u32_recursive. }
  assert (disj_ev e' (omit P)) as Ho.
  { unfold e'. pose proof (d_re_om P HP) as K. unfold user_ev, internal in Hue. destruct isrec; clear - K Hue; bits. }
  destruct (rec_add_spec E (st_tree s) p HE Ht Hp) as (t1&Hadd&Ht1&Hs1&Hold&Hwp&_).
  pose proof (find_spec E (st_tree s) p HE Ht Hp) as Hf. rewrite Hadd.
  assert (∀ r s1, wreg t1 p n e' r (st_tree s1) → wreg (st_tree s) p n e' r (st_tree s1)) as Hback.
  { intros r1 s1 (K1&K2&K3). unfold wreg, RecFacts.rureg in *. split_and!; [done| |].
    - intros q m Hq Hne. rewrite (K2 q m Hq Hne). by rewrite Hwp.
    - by rewrite <-(Hwp p). }
  destruct (find_parent E (st_tree s) (nameof p)) as [[h self]|].
  - destruct Hf as (Hpre&->&Hnz&Hsh&_). intros Hc Hpan. apply Hback.
    assert ([] ∉ h) as Hh. { intros K. apply (proj1 Hp). destruct Hpre as [z ->]. set_solver. }
    eapply (case1_wreg E HE n e' Hu' Ho (with_tree s t1) p h isrec s' r); try done. simpl. by rewrite Hold.
  - assert (watchTotal E t1 p = 0) as Hz.
    { assert (watchTotal E (st_tree s) p = 0) as K by (apply Hf; [done|intros _; by apply rpath_ne]).
      unfold watchTotal in *. by rewrite !Hwp. }
    pose proof (total0_rureg E t1 p n HE Ht1 Hp Hz) as Hi.
    pose proof (collect_tree E (with_tree s t1) p) as (Hc1&Hc2&Hc3).
    destruct (collect E (with_tree s t1) p) as [s2 l]. cbn [fst st_tree with_tree] in Hc1.
    assert (∀ r s3, wreg (st_tree s2) p n e' r (st_tree s3) → wreg (st_tree s) p n e' r (st_tree s3)) as Hback2.
    { intros r1 s3. rewrite Hc1. apply Hback. }
    assert (rinv (st_tree s2) ∧ is_Some (st_tree s2 !! p) ∧ incl_ev (rureg (st_tree s2) p n) (recursive P)) as (Ht2&Hs2&Hi2) by (by rewrite Hc1).
    intros Hc Hpan. apply Hback2. destruct l as [|k [|k' l]].
    + by eapply case3_wreg.
    + by eapply case2_one_wreg.
    + by eapply case2_many_wreg.
Qed.
End rec.
