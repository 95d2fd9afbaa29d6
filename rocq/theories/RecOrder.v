(** * RecOrder: along an orderly history the recursive tree keeps the OS watches as
    they should be *)
From Verif Require Import Base Event Watchpoint WatchpointFacts Paths PathsFacts Loop LoopFacts
  Node NodeFacts SpecTree WalkFacts RootFacts NonRec NonRecWp Rec SpecNonRec SpecOS SpecRec RecFacts RecReg RecStop RecDisp RecStep RecTidy RecCopy RecOS.
Local Open Scope N_scope.

Section order.
Context (P : platform) (HP : platform_ok P) (sepc : ascii) (w : bool) (isvol : str → Prop) (strict : bool).
Notation nameof := (nameof sepc w).
Notation renv := (renv P sepc w isvol).
Notation rpath := (rpath sepc w isvol).
Notation rinv := (rinv P sepc w isvol).
Notation wpt := (wpt P).
Notation wt := (wt P).
Notation wrec := (RecTidy.wrec P).
Notation good := (good P).
Notation tidy := (tidy P sepc w isvol strict).
Notation watched m q := (is_Some (m !! nameof q)).
Notation osm s := (os_watches (st_log s)).

Record sound (s : st) : Prop := {
  so_tidy : tidy (st_tree s) (osm s);
  so_legal : log_legal P (st_log s);
  so_calm : st_panic s = false;
}.
Lemma log_legal_snoc log c ok : log_legal P log → legal P (os_watches log) c → log_legal P (log ++ [(c, ok)]).
Proof.
  intros H1 H2 l1 c' ok' l2 E. destruct l2 as [|x l2 _] using rev_ind.
  - apply app_inj_tail in E as [E1 E2]. injection E2 as -> ->. by rewrite <-E1.
  - rewrite app_comm_cons, app_assoc in E. apply app_inj_tail in E as [E1 _]. by eapply H1.
Qed.
Lemma norm_none a b : is_none (norm a b) = (a =? b).
Proof.
  unfold norm. destruct (N.eqb_spec a b) as [->|Hne]; [done|]. unfold is_none. cbn [fst snd].
  destruct (N.eqb_spec a 0), (N.eqb_spec b 0); try done. congruence.
Qed.
Lemma norm_ne a b : a ≠ b → norm a b = (a, b).
Proof. intros H. unfold norm. by destruct (N.eqb_spec a b). Qed.

(** The OS watches of [s'] are on paths watched in [s], or on [p]. *)
Definition grows (p : path) (s s' : st) : Prop := ∀ y, is_Some (osm s' !! y) → y = nameof p ∨ is_Some (osm s !! y).
Lemma grows_same p s s' : osm s' = osm s → grows p s s'.
Proof. intros H y Hy. right. by rewrite <-H. Qed.
Section env.
Context (E : env) (HE : renv E) (HO : obliging P E).
Let Hinj : ∀ p q, rpath p → rpath q → nameof p = nameof q → p = q := λ p q, name_inj P sepc w isvol E p q HE.
Let HEp : e_plat E = P := re_plat _ _ _ _ _ HE.

Lemma call_ok s c : log_legal P (st_log s) → legal P (osm s) c →
  ∃ s', wcallf E s c = (s', true) ∧ st_tree s' = st_tree s ∧ st_panic s' = st_panic s ∧
    osm s' = os_step (osm s) (c, true) ∧ log_legal P (st_log s').
Proof.
  intros H1 H2. unfold wcallf. rewrite (HO _ _ H2). eexists. split_and!; try done; cbn [st_log].
  - unfold os_watches. by rewrite foldl_app.
  - by apply log_legal_snoc.
Qed.

Section watch.
Context (n : positive) (e : N) (He : good e).
Notation c := (KUser n).
Notation A wp := (wadd P wp c e).1.
Lemma A_idem wp : wpt wp → A (A wp) = A wp.
Proof.
  intros Hw. apply (agg_ok_ext P).
  - apply agg_ok_wadd; [done|]. by apply agg_ok_wadd, Hw.
  - by apply agg_ok_wadd, Hw.
  - intros k Hk. rewrite wadd_get by done. case_bool_decide as Hkc; [|done]. subst k.
    rewrite wadd_wget, wadd_get by done. rewrite !bool_decide_true by done. f_equal. clear. bits.
Qed.
(** If nothing changed then the events were watched already. *)
Lemma A_same wp x : wtotal P (A wp) .| x = wtotal P wp .| x → incl_ev (e .&^ internal P) (wtotal P wp .| x).
Proof.
  intros K i [H1 H2]%has_ldiff. rewrite <-K. apply has_lor. left. unfold wtotal. rewrite wadd_nil by done.
  rewrite has_ldiff, has_ldiff, has_lor. split_and!; auto. destruct He as (Ho&_). intros X. by apply (Ho i).
Qed.

Lemma case1_self s p isrec :
  sound s → rpath p → watched (osm s) p →
  (isrec = true ↔ e .& recursive P ≠ 0) →
  (strict = true → isrec = true → ∀ x, osm s !! nameof p = Some (x, false) → ¬ incl_ev (e .&^ internal P) x) →
  ∃ s', case1 E s p p true isrec c e = (s', ROk) ∧ sound s' ∧ grows p s s'.
Proof.
  intros [Ht Hl Hc] Hp Wp Hrec HA. assert ([] ∉ p) as Hpp by apply Hp.
  destruct Wp as [[x k] Hv]. destruct (td_at P sepc w isvol strict Hinj _ _ _ _ Ht Hp Hv) as (Hx&Hnz&Hs&Hk). cbn [fst snd] in Hx, Hk. subst x.
  pose proof (td_inv _ _ _ _ _ _ _ Ht) as Hi.
  unfold case1. pose proof He as (He1&He2&He3).
  destruct (add_put P sepc w isvol E HE n e He2 He1 s p Hi Hp Hs) as (H1&H2&H3&H4&H5&H6).
  pose proof (rwatchAdd_diff P sepc w isvol E HE n s p e Hi Hpp Hs) as Hd.
  destruct (rwatchAdd E s p c e) as [s1 d]. cbn [fst snd] in *. subst d. rewrite norm_none.
  assert (∀ q, wpt (wp_at (st_tree s) q)) as Hw0 by apply (td_wp _ _ _ _ _ _ _ Ht).
  assert (wp_at (st_tree s1) p = A (wp_at (st_tree s) p)) as Hwp by (by rewrite H4, decide_True).
  assert (wp_at (st_tree s1) (inact p) = wp_at (st_tree s) (inact p)) as Hwi.
  { rewrite H4, decide_False; [done|]. intros K. symmetry in K. by apply inact_ne in K. }
  assert (wpt (A (wp_at (st_tree s) p))) as Hw1 by (by apply (A_wpt P)).
  destruct (N.eqb_spec (wt (st_tree s) p) (wt (st_tree s1) p)) as [Heq|Hne].
  { exists s1. split; [done|]. rewrite <-H6 in Hv. split; [|apply grows_same; by rewrite H6]. split; [|by rewrite H6|by rewrite H5].
    eapply (tidy_self P sepc w isvol strict Hinj (st_tree s) (st_tree s1) (osm s) (osm s1) p n e Ht Hp H1 (λ q _, H3 q)) with (k' := k); try done.
    - rewrite <-H6. eauto.
    - by rewrite <-Heq.
    - intros [Hst Hr]. destruct k; [done|]. exfalso. destruct (decide (isrec = true)) as [Hir|Hir].
      + apply (HA Hst Hir (wt (st_tree s) p)); [by rewrite <-H6|]. unfold RecTidy.wt at 1. apply A_same.
        unfold RecTidy.wt in Heq. by rewrite Hwp, Hwi in Heq.
      + assert (wrec (st_tree s) p) as K; [|by assert (false = true) by (apply Hk; by split)]. destruct Hr as [Hr|Hr]; [left|right; by rewrite Hwi in Hr].
        rewrite Hwp in Hr. apply (isRecursive_true P) in Hr as [j Hj]; [|done]. apply (isRecursive_user P _ j); [done|].
        apply nonzero_bit in Hj as [i [K1 K2]%has_land]. apply nonzero_bit. exists i. apply has_land. split; [|done].
        apply (A_get P) in K1 as [K1|[_ K1]]; [done|]. exfalso. apply Hir, Hrec. apply nonzero_bit. exists i. by apply has_land.
    - intros y _. by rewrite H6. }
  rewrite norm_ne by done. cbn [fst snd]. destruct (N.eqb_spec (wt (st_tree s) p) 0) as [|_]; [done|].
  assert (is_Some (st_tree s1 !! p)) as Hs1 by auto.
  rewrite (rinv_name _ _ _ _ _ p H1 Hpp Hs1).
  assert (wt (st_tree s1) p ≠ 0) as Hnz1.
  { intros Hz. apply (wt_zero P) in Hz as [Hz _]; [|by rewrite Hwp|by rewrite Hwi].
    rewrite Hwp in Hz. revert Hz. by apply (wadd_ne P). }
  assert (∃ s2 k', (if isrec || watchIsRecursive E (st_tree s1) p
      then wcallf E s1 (WRecRewatch (nameof p) (nameof p) (wt (st_tree s) p) (wt (st_tree s1) p))
      else wcallf E s1 (WRewatch (nameof p) (wt (st_tree s) p) (wt (st_tree s1) p))) = (s2, true) ∧
    st_tree s2 = st_tree s1 ∧ st_panic s2 = st_panic s1 ∧ osm s2 = <[nameof p := (wt (st_tree s1) p, k')]> (osm s) ∧
    log_legal P (st_log s2) ∧ (wrec (st_tree s1) p → k' = true)) as (s2&k'&->&G1&G2&G3&G4&G5).
  { pose proof (wt_int P (st_tree s1) p) as Hint. destruct (isrec || watchIsRecursive E (st_tree s1) p) eqn:Eb.
    - destruct (call_ok s1 (WRecRewatch (nameof p) (nameof p) (wt (st_tree s) p) (wt (st_tree s1) p))) as (s2&->&G1&G2&G3&G4).
      + by rewrite H6.
      + cbn [legal]. rewrite H6, Hv. by split_and!.
      + exists s2, true. split_and!; try done. rewrite G3, H6. cbn [os_step]. apply insert_delete_insert.
    - destruct (call_ok s1 (WRewatch (nameof p) (wt (st_tree s) p) (wt (st_tree s1) p))) as (s2&->&G1&G2&G3&G4).
      + by rewrite H6.
      + cbn [legal]. rewrite H6, Hv. by split_and!.
      + exists s2, false. split_and!; try done; [by rewrite G3, H6|]. intros K.
        apply orb_false_iff in Eb as [_ Eb]. apply (watchIsRecursive_wrec P HP E) in K; [|done]. congruence. }
  eexists. split; [done|].
  rewrite <-G1 in H1, Hs1. destruct (add_put P sepc w isvol E HE n e He2 He1 s2 p H1 Hp Hs1) as (F1&F2&F3&F4&F5&F6).
  assert (∀ q, wp_at (st_tree (rwatchAdd E s2 p c e).1) q = wp_at (st_tree s1) q) as Hfin.
  { intros q. rewrite F4, G1. destruct (decide (q = p)) as [->|]; [|done]. rewrite Hwp. by apply A_idem. }
  destruct (wt_ext P (st_tree s1) (st_tree (rwatchAdd E s2 p c e).1) p (Hfin _) (Hfin _)) as [Q1 Q2].
  split; [|intros y; rewrite F6, G3; destruct (decide (y = nameof p)) as [|Hy]; [by left|rewrite lookup_insert_ne by done; by right]].
  split; [|by rewrite F6|by rewrite F5, G2, H5].
  eapply (tidy_self P sepc w isvol strict Hinj (st_tree s) _ (osm s) _ p n e Ht Hp F1) with (k' := k'); try done.
  - intros q Hq K. apply F3. rewrite G1. auto.
  - intros q. rewrite Hfin. apply H4.
  - rewrite F6, G3, lookup_insert, Q1. done.
  - intros [_ K]. apply G5. by apply Q2.
  - intros y Hy. by rewrite F6, G3, lookup_insert_ne.
Qed.

Lemma case1_below s p h isrec :
  sound s → rpath p → is_Some (st_tree s !! p) → rpath h → above h p → watched (osm s) h →
  (strict = true → ∀ x, osm s !! nameof h = Some (x, false) → ¬ incl_ev (e .&^ internal P) x) →
  ∃ s', case1 E s p h false isrec c e = (s', ROk) ∧ sound s' ∧ grows p s s'.
Proof.
  intros [Ht Hl Hc] Hp Hsp Hh Hhp Wh HA. assert ([] ∉ p) as Hpp by apply Hp. assert ([] ∉ h) as Hhh by apply Hh.
  pose proof Wh as [[x k] Hv]. destruct (td_at P sepc w isvol strict Hinj _ _ _ _ Ht Hh Hv) as (Hx&Hnz&Hs&Hk). cbn [fst snd] in Hx, Hk. subst x.
  pose proof (td_inv _ _ _ _ _ _ _ Ht) as Hi.
  unfold case1. pose proof He as (He1&He2&He3).
  destruct (addInactive_spec P sepc w isvol E HE n s h e Hi Hhh Hs) as (H1&H5&H6&_&H3&H4&Hd).
  destruct (watchAddInactive E s h c e) as [s1 d]. cbn [fst snd] in *. subst d. rewrite norm_none.
  assert (∀ q, wpt (wp_at (st_tree s) q)) as Hw0 by apply (td_wp _ _ _ _ _ _ _ Ht).
  assert (wp_at (st_tree s1) h = wp_at (st_tree s) h) as Hwp.
  { rewrite H4, decide_False; [done|]. by apply inact_ne. }
  assert (wp_at (st_tree s1) (inact h) = A (wp_at (st_tree s) (inact h))) as Hwi by (by rewrite H4, decide_True).
  assert (wp_at (st_tree s1) (inact h) ≠ ∅) as Hine by (rewrite Hwi; by apply (wadd_ne P)).
  assert (is_Some (st_tree s1 !! p)) as Hsp1 by (by rewrite H3).
  assert (is_Some (st_tree s1 !! h)) as Hsh1 by (by rewrite H3).
  assert (∀ s2 k', st_tree s2 = st_tree s1 → osm s2 !! nameof h = Some (wt (st_tree s1) h, k') → (strict = true → k' = true) →
    (∀ y, y ≠ nameof h → osm s2 !! y = osm s !! y) → log_legal P (st_log s2) → st_panic s2 = false →
    sound (rwatchAdd E s2 p c e).1 ∧ grows p s (rwatchAdd E s2 p c e).1) as Hfin.
  { intros s2 k' G1 G2 Gk G3 G4 G5. rewrite <-G1 in H1, Hsp1.
    destruct (add_put P sepc w isvol E HE n e He2 He1 s2 p H1 Hp Hsp1) as (F1&F2&F3&F4&F5&F6).
    split; [|intros y; rewrite F6; destruct (decide (y = nameof h)) as [->|Hy]; [by right|rewrite G3 by done; by right]].
    split; [|by rewrite F6|by rewrite F5].
    assert (p ≠ inact h) as Hpi by (by apply inact_ne).
    assert (wt (st_tree (rwatchAdd E s2 p c e).1) h = wt (st_tree s1) h) as Q.
    { assert (h ≠ p) as Hne by apply Hhp. apply (wt_ext P); rewrite F4, G1, decide_False; try done. }
    eapply (tidy_below P sepc w isvol strict Hinj (st_tree s) _ (osm s) _ p n e Ht Hp F1) with (h := h) (k' := k'); try done.
    - intros q Hq K. apply F3. rewrite G1. by rewrite H3.
    - intros q. rewrite F4, G1. destruct (decide (q = p)) as [->|]; [|by rewrite H4].
      by rewrite H4, decide_False.
    - rewrite F6, G2, Q. done.
    - intros y Hy. rewrite F6. by apply G3. }
  destruct (N.eqb_spec (wt (st_tree s) h) (wt (st_tree s1) h)) as [Heq|Hne].
  { eexists. split; [done|]. apply (Hfin s1 k); rewrite ?H6; try done; [by rewrite <-Heq| |by rewrite H5].
    intros Hst. destruct k; [done|]. exfalso. apply (HA Hst _ Hv).
    unfold RecTidy.wt at 1. rewrite N.lor_comm. apply A_same.
    unfold RecTidy.wt in Heq. rewrite Hwp, Hwi in Heq. rewrite (N.lor_comm _ (wtotal P (wp_at (st_tree s) h))).
    rewrite <-Heq. apply N.lor_comm. }
  rewrite norm_ne by done. cbn [fst snd]. destruct (N.eqb_spec (wt (st_tree s) h) 0) as [|_]; [done|].
  rewrite (rinv_name _ _ _ _ _ h H1 Hhh Hsh1).
  assert (wrec (st_tree s1) h) as Hr by (by right). apply (watchIsRecursive_wrec P HP E) in Hr; [|done]. rewrite Hr, orb_true_r.
  destruct (call_ok s1 (WRecRewatch (nameof h) (nameof h) (wt (st_tree s) h) (wt (st_tree s1) h))) as (s2&->&G1&G2&G3&G4).
  - by rewrite H6.
  - cbn [legal]. rewrite H6, Hv. split_and!; try done.
    + intros Hz. apply (wt_zero P) in Hz as [_ Hz]; [done|by rewrite Hwp|rewrite Hwi; by apply (A_wpt P)].
    + apply wt_int.
  - eexists. split; [done|]. apply (Hfin s2 true); try done; rewrite ?G3, ?H6; cbn [os_step].
    + by rewrite lookup_insert.
    + intros y Hy. by rewrite lookup_insert_ne, lookup_delete_ne.
    + by rewrite G2, H5.
Qed.

(** Watching a path with no watch at or above it and none below. *)
Lemma case3_ok s p isrec :
  sound s → rpath p → is_Some (st_tree s !! p) →
  (∀ q, rpath q → q `prefix_of` p → ¬ watched (osm s) q) → wt (st_tree s) p = 0 →
  (∀ h, rpath h → above p h → ¬ watched (osm s) h) →
  (isrec = true ↔ e .& recursive P ≠ 0) →
  ∃ s', case3 E s p isrec c e = (s', ROk) ∧ sound s' ∧ grows p s s'.
Proof.
  intros [Ht Hl Hc] Hp Hs Hno Hz Hbel Hrec. assert ([] ∉ p) as Hpp by apply Hp.
  pose proof (td_inv _ _ _ _ _ _ _ Ht) as Hi. pose proof He as (He1&He2&He3).
  assert (∀ q, wpt (wp_at (st_tree s) q)) as Hw0 by apply (td_wp _ _ _ _ _ _ _ Ht).
  destruct (wt_zero P _ _ (Hw0 p) (Hw0 (inact p)) Hz) as [Z1 Z2].
  unfold case3.
  destruct (add_put P sepc w isvol E HE n e He2 He1 s p Hi Hp Hs) as (H1&H2&H3&H4&H5&H6).
  pose proof (rwatchAdd_diff P sepc w isvol E HE n s p e Hi Hpp Hs) as Hd.
  destruct (rwatchAdd E s p c e) as [s1 d]. cbn [fst snd] in *. subst d. rewrite norm_none, Hz.
  assert (wp_at (st_tree s1) p = A ∅) as Hwp by (by rewrite H4, decide_True, Z1).
  assert (wp_at (st_tree s1) (inact p) = ∅) as Hwi.
  { rewrite H4, decide_False; [done|]. intros K. symmetry in K. by apply inact_ne in K. }
  assert (wpt (A ∅)) as Hw1 by (apply (A_wpt P); [done|apply wpt_empty]).
  assert (wt (st_tree s1) p ≠ 0) as Hnz1.
  { intros K. apply (wt_zero P) in K as [K _]; [|by rewrite Hwp|rewrite Hwi; apply wpt_empty].
    rewrite Hwp in K. revert K. by apply (wadd_ne P). }
  destruct (N.eqb_spec 0 (wt (st_tree s1) p)) as [|_]; [done|]. rewrite norm_ne by done. cbn [fst snd]. rewrite N.eqb_refl.
  rewrite (rinv_name _ _ _ _ _ p H1 Hpp H2).
  assert (osm s !! nameof p = None) as Hnone by (apply eq_None_not_Some; by apply Hno).
  assert (∃ s2, (if isrec then wcallf E s1 (WRecWatch (nameof p) (wt (st_tree s1) p)) else wcallf E s1 (WWatch (nameof p) (wt (st_tree s1) p))) = (s2, true) ∧
    st_tree s2 = st_tree s1 ∧ st_panic s2 = st_panic s1 ∧ osm s2 = <[nameof p := (wt (st_tree s1) p, isrec)]> (osm s) ∧
    log_legal P (st_log s2)) as (s2&->&G1&G2&G3&G4).
  { pose proof (wt_int P (st_tree s1) p) as Hint. destruct isrec.
    - destruct (call_ok s1 (WRecWatch (nameof p) (wt (st_tree s1) p))) as (s2&->&G1&G2&G3&G4).
      + by rewrite H6.
      + cbn [legal]. by rewrite H6.
      + exists s2. split_and!; try done. by rewrite G3, H6.
    - destruct (call_ok s1 (WWatch (nameof p) (wt (st_tree s1) p))) as (s2&->&G1&G2&G3&G4).
      + by rewrite H6.
      + cbn [legal]. by rewrite H6.
      + exists s2. split_and!; try done. by rewrite G3, H6. }
  exists s2. split; [done|].
  split; [|intros y; rewrite G3; destruct (decide (y = nameof p)) as [|Hy]; [by left|rewrite lookup_insert_ne by done; by right]].
  split; [|done|by rewrite G2, H5]. rewrite G1, G3.
  assert (∀ h, rpath h → h ≠ p → <[nameof p:=(wt (st_tree s1) p, isrec)]> (osm s) !! nameof h = osm s !! nameof h) as Hoth.
  { intros h Hh Hne. rewrite lookup_insert_ne; [done|]. intros K. apply Hne. symmetry. by apply Hinj. }
  eapply (tidy_over P sepc w isvol strict (st_tree s) _ (osm s) _ p n e Ht Hp H1) with (wi := ∅) (k' := isrec); try done.
  - auto.
  - intros q. rewrite H4. destruct (decide (q = p)); [done|]. by destruct (decide (q = inact p)) as [->|].
  - intros k i. rewrite wget_empty. split; [intros K; by apply has_0 in K|]. intros (h&Hh&Hph&Wh&_). exfalso. by apply (Hbel h).
  - by rewrite lookup_insert.
  - intros [_ [K|K]]; [|done]. rewrite Hwp in K. apply (isRecursive_true P) in K as [j [i [K1 K2]%has_land]%nonzero_bit]; [|done].
    apply (A_get P) in K1 as [K1|[_ K1]]; [rewrite wget_empty in K1; by apply has_0 in K1|].
    apply Hrec, nonzero_bit. exists i. by apply has_land.
  - intros h Hh Hph. rewrite Hoth; [|done|]. { apply eq_None_not_Some. by apply Hbel. } intros ->. by apply (proj2 Hph).
  - intros h Hh Hne _. by apply Hoth.
  - intros y Hy _. by rewrite lookup_insert_ne.
Qed.

(** Copying from all the watched nodes below. *)
Lemma copy_all p l : rpath p → ∀ s,
  rinv (st_tree s) → is_Some (st_tree s !! p) → (∀ q, wpt (wp_at (st_tree s) q)) →
  (∀ h, h ∈ l → above p h ∧ [] ∉ h ∧ wp_at (st_tree s) h ≠ ∅) →
  let s' := foldl (λ s k, watchCopy E s k p) s l in
  rinv (st_tree s') ∧ st_panic s' = st_panic s ∧ st_log s' = st_log s ∧
  (∀ q, [] ∉ q → st_tree s' !! q = st_tree s !! q) ∧
  (∀ q, q ≠ inact p → wp_at (st_tree s') q = wp_at (st_tree s) q) ∧
  wpt (wp_at (st_tree s') (inact p)) ∧
  (∀ k i, has (wget (wp_at (st_tree s') (inact p)) (KUser k)) i ↔ has (wget (wp_at (st_tree s) (inact p)) (KUser k)) i ∨
     ∃ h, h ∈ l ∧ (has (wget (wp_at (st_tree s) h) (KUser k)) i ∨ has (wget (wp_at (st_tree s) (inact h)) (KUser k)) i)).
Proof.
  intros Hp. assert ([] ∉ p) as Hpp by apply Hp. induction l as [|h l IH]; intros s Hi Hs Hw Hl; cbn [foldl]; cbv zeta.
  { split_and!; try done. intros k i. split; [by left|]. intros [?|(h&K&_)]; [done|]. by apply elem_of_nil in K. }
  destruct (Hl h ltac:(left)) as (Hph&Hh&Hne).
  destruct (copy_spec P sepc w isvol E HE p Hpp s h Hi Hs Hw ltac:(intros ->; by apply (proj2 Hph)) Hh Hne) as (l1&[C1 C2 C3 C4 C5 C6 C7 C8]&Hl1).
  set (s1 := watchCopy E s h p) in *.
  destruct (IH s1) as (D1&D2&D3&D4&D5&D6&D7).
  - done.
  - by rewrite C4.
  - intros q. destruct (decide (q = inact p)) as [->|Hq]; [done|]. by rewrite C5.
  - intros q Hq. destruct (Hl q ltac:(by right)) as (X1&X2&X3). split_and!; try done. rewrite C5; [done|]. by apply inact_ne.
  - split_and!; try done.
    + by rewrite D2.
    + by rewrite D3.
    + intros q Hq. rewrite D4 by done. by apply C4.
    + intros q Hq. rewrite D5 by done. by apply C5.
    + intros k i. rewrite D7, C8, Hl1. split.
      * intros [[?|?]|(q&Hq&K)]; [by left|right; exists h; split; [left|done]|].
        right. exists q. split; [by right|]. destruct (Hl q ltac:(by right)) as (X1&X2&_).
        rewrite !C5 in K; [done| |by apply inact_ne]. intros E0. apply app_inj_tail in E0 as [E0 _]. subst q. by apply (proj2 X1).
      * intros [?|(q&[->|Hq]%elem_of_cons&K)]; [auto|auto|]. right. exists q. split; [done|].
        destruct (Hl q ltac:(by right)) as (X1&X2&_).
        rewrite !C5; [done| |by apply inact_ne]. intros E0. apply app_inj_tail in E0 as [E0 _]. subst q. by apply (proj2 X1).
Qed.

(** Unwatching the watches taken over. *)
Lemma unwatch_ok l : ∀ s,
  rinv (st_tree s) → log_legal P (st_log s) → NoDup l →
  (∀ h, h ∈ l → rpath h ∧ is_Some (st_tree s !! h) ∧ watched (osm s) h) →
  ∃ s', unwatch_children E s l = (s', ROk) ∧ st_tree s' = st_tree s ∧ st_panic s' = st_panic s ∧ log_legal P (st_log s') ∧
    (∀ h, h ∈ l → osm s' !! nameof h = None) ∧
    (∀ x, (∀ h, h ∈ l → x ≠ nameof h) → osm s' !! x = osm s !! x) ∧
    (∀ x, is_Some (osm s' !! x) → osm s' !! x = osm s !! x).
Proof.
  unfold unwatch_children. induction l as [|h l IH]; intros s Hi Hl Hnd Hall; cbn [foldl].
  { exists s. split_and!; try done. intros h K. by apply elem_of_nil in K. }
  apply NoDup_cons in Hnd as [Hnd1 Hnd2]. destruct (Hall h ltac:(left)) as (Hh&Hs&Wh). cbv zeta.
  rewrite (rinv_name _ _ _ _ _ h Hi (proj1 Hh) Hs).
  assert (∃ s1, (if watchIsRecursive E (st_tree s) h then wcallf E s (WRecUnwatch (nameof h)) else wcallf E s (WUnwatch (nameof h))) = (s1, true) ∧
    st_tree s1 = st_tree s ∧ st_panic s1 = st_panic s ∧ osm s1 = delete (nameof h) (osm s) ∧ log_legal P (st_log s1)) as (s1&->&G1&G2&G3&G4).
  { destruct (watchIsRecursive E (st_tree s) h).
    - destruct (call_ok s (WRecUnwatch (nameof h)) Hl Wh) as (s1&->&?&?&?&?). eauto 10.
    - destruct (call_ok s (WUnwatch (nameof h)) Hl Wh) as (s1&->&?&?&?&?). eauto 10. }
  destruct (IH s1) as (s'&->&F1&F2&F3&F4&F5&F6); try done.
  - by rewrite G1.
  - intros q Hq. destruct (Hall q ltac:(by right)) as (X1&X2&X3). rewrite G1, G3. split_and!; try done.
    rewrite lookup_delete_ne; [done|]. intros K. apply Hinj in K as ->; done.
  - exists s'. split_and!; try done.
    + by rewrite F1.
    + by rewrite F2.
    + intros q [->|Hq]%elem_of_cons; [|by apply F4]. rewrite F5, G3; [by rewrite lookup_delete|].
      intros q Hq K. destruct (Hall q ltac:(by right)) as (X1&_). apply Hinj in K as ->; done.
    + intros x Hx. rewrite F5, G3, lookup_delete_ne; [done| |]. { intros <-. by apply (Hx h ltac:(left)). }
      intros q Hq. apply Hx. by right.
    + intros x Hx. pose proof Hx as [v Hv]. rewrite F6, G3 in Hv by done. apply lookup_delete_Some in Hv as [Hne Hv].
      rewrite F6, G3 by done. by rewrite lookup_delete_ne.
Qed.

(** Watching a path with watches below it. *)
Lemma case2_common s p l :
  sound s → rpath p → is_Some (st_tree s !! p) →
  (∀ q, rpath q → q `prefix_of` p → ¬ watched (osm s) q) → wt (st_tree s) p = 0 →
  (∀ h, h ∈ l ↔ rpath h ∧ above p h ∧ watched (osm s) h) → (∀ h, h ∈ l → wp_at (st_tree s) h ≠ ∅) →
  let s2 := foldl (λ s k, watchCopy E s k p) (rwatchAdd E s p c e).1 l in
  rinv (st_tree s2) ∧ st_panic s2 = st_panic s ∧ st_log s2 = st_log s ∧
  (∀ q, [] ∉ q → is_Some (st_tree s !! q) → is_Some (st_tree s2 !! q)) ∧
  wt (st_tree s2) p ≠ 0 ∧
  (∀ h, h ∈ l → wt (st_tree s2) h = wt (st_tree s) h) ∧
  (∀ m', m' !! nameof p = Some (wt (st_tree s2) p, true) →
     (∀ h, h ∈ l → m' !! nameof h = None) →
     (∀ x, x ≠ nameof p → (∀ h, h ∈ l → x ≠ nameof h) → m' !! x = osm s !! x) →
     (∀ x, x ≠ nameof p → is_Some (m' !! x) → m' !! x = osm s !! x) → tidy (st_tree s2) m').
Proof.
  intros [Ht Hl Hc] Hp Hs Hno Hz Hin Hne. cbv zeta. assert ([] ∉ p) as Hpp by apply Hp.
  pose proof (td_inv _ _ _ _ _ _ _ Ht) as Hi. pose proof He as (He1&He2&He3).
  assert (∀ q, wpt (wp_at (st_tree s) q)) as Hw0 by apply (td_wp _ _ _ _ _ _ _ Ht).
  destruct (wt_zero P _ _ (Hw0 p) (Hw0 (inact p)) Hz) as [Z1 Z2].
  destruct (add_put P sepc w isvol E HE n e He2 He1 s p Hi Hp Hs) as (H1&H2&H3&H4&H5&H6).
  set (s1 := (rwatchAdd E s p c e).1) in *.
  assert (∀ h, h ∈ l → wp_at (st_tree s1) h = wp_at (st_tree s) h ∧ wp_at (st_tree s1) (inact h) = wp_at (st_tree s) (inact h)) as Hsame.
  { intros h Hh. apply Hin in Hh as (X1&X2&X3). split; rewrite H4, decide_False; try done.
    - intros ->. by apply (proj2 X2).
    - intros K. symmetry in K. by apply inact_ne in K. }
  assert (inact p ≠ p) as Hip by (intros K; symmetry in K; by apply inact_ne in K).
  destruct (copy_all p l Hp s1) as (D1&D2&D3&D4&D5&D6&D7); try done.
  - intros q. rewrite H4. destruct (decide (q = p)); [by apply (A_wpt P)|done].
  - intros h Hh. rewrite (proj1 (Hsame h Hh)). pose proof Hh as (X1&X2&X3)%Hin. split_and!; try done; [apply X1|by apply Hne].
  - set (s2 := foldl _ s1 l) in *.
    assert (∀ q, wp_at (st_tree s2) q = if decide (q = p) then A (wp_at (st_tree s) p) else
      if decide (q = inact p) then wp_at (st_tree s2) (inact p) else wp_at (st_tree s) q) as Hw2.
    { intros q. destruct (decide (q = inact p)) as [->|Hq]; [by rewrite decide_False|]. rewrite D5, H4 by done.
      by destruct (decide (q = p)). }
    assert (wp_at (st_tree s2) p = A (wp_at (st_tree s) p)) as Hwp by (by rewrite Hw2, decide_True).
    assert (wt (st_tree s2) p ≠ 0) as Hnz.
    { intros K. apply (wt_zero P) in K as [K _]; [|by rewrite Hwp; apply (A_wpt P)|done]. rewrite Hwp in K. revert K. by apply (wadd_ne P). }
    assert (∀ q, [] ∉ q → is_Some (st_tree s !! q) → is_Some (st_tree s2 !! q)) as Hnodes.
    { intros q Hq K. rewrite D4 by done. auto. }
    split_and!; try done.
    + by rewrite D2.
    + by rewrite D3.
    + intros h Hh. pose proof Hh as (X1&X2&X3)%Hin. apply (wt_ext P).
      * rewrite D5 by (apply inact_ne, X1). by apply Hsame.
      * rewrite D5; [by apply Hsame|]. intros K. apply app_inj_tail in K as [-> _]. by apply (proj2 X2).
    + intros m' M1 M2 M3 M4.
      eapply (tidy_over P sepc w isvol strict (st_tree s) _ (osm s) _ p n e Ht Hp D1) with (wi := wp_at (st_tree s2) (inact p)) (k' := true); try done.
      * by rewrite D4.
      * intros k i. rewrite D7. rewrite (H4 (inact p)), decide_False, Z2, wget_empty by done. split.
        -- intros [K|(h&Hh&K)]; [by apply has_0 in K|]. exists h. destruct (Hsame h Hh) as [S1 S2]. rewrite S1, S2 in K.
           pose proof Hh as (X1&X2&X3)%Hin. done.
        -- intros (h&X1&X2&X3&K). right. assert (h ∈ l) as Hh by (by apply Hin). exists h. split; [done|].
           destruct (Hsame h Hh) as [S1 S2]. by rewrite S1, S2.
      * intros h Hh Hph. destruct (decide (h ∈ l)) as [Hhl|Hhl]; [by apply M2|].
        assert (nameof h ≠ nameof p) as Hnp. { intros K. apply Hinj in K as ->; try done. by apply (proj2 Hph). }
        rewrite M3; [|done|].
        -- apply eq_None_not_Some. intros K. apply Hhl. by apply Hin.
        -- intros q Hq K. apply Hin in Hq as Hq'. apply Hinj in K as ->; [done|done|apply Hq'].
      * intros h Hh Hnp Hna. apply M3.
        -- intros K. by apply Hinj in K.
        -- intros q Hq K. apply Hin in Hq as Hq'. apply Hinj in K as ->; [|done|apply Hq']. apply Hna, Hq'.
Qed.
Lemma case2_one_ok s p h :
  sound s → rpath p → is_Some (st_tree s !! p) →
  (∀ q, rpath q → q `prefix_of` p → ¬ watched (osm s) q) → wt (st_tree s) p = 0 →
  (∀ q, q ∈ [h] ↔ rpath q ∧ above p q ∧ watched (osm s) q) → wp_at (st_tree s) h ≠ ∅ →
  ∃ s', case2_one E s p h c e = (s', ROk) ∧ sound s' ∧ grows p s s'.
Proof.
  intros Hso Hp Hs Hno Hz Hin Hne. pose proof Hso as [Ht Hl Hc]. unfold case2_one.
  destruct (case2_common s p [h] Hso Hp Hs Hno Hz Hin) as (K1&K2&K3&K4&K5&K6&K7).
  { intros q ->%elem_of_list_singleton. done. }
  cbn [foldl] in *. set (s2 := watchCopy E (rwatchAdd E s p c e).1 h p) in *.
  assert (rpath h ∧ above p h ∧ watched (osm s) h) as (Hh&Hph&Wh) by (apply Hin; left).
  pose proof Wh as [v Hv]. destruct (td_at P sepc w isvol strict Hinj _ _ _ _ Ht Hh Hv) as (Hx&Hnz&Hsh&Hk).
  assert (nameof h ≠ nameof p) as Hnp. { intros K. apply Hinj in K as ->; [|done..]. by apply (proj2 Hph). }
  rewrite !(watchTotal_wt P E) by done. rewrite !(rinv_name _ _ _ _ _ _ K1); try done;
    [|apply Hp|apply K4; [apply Hp|done]|apply Hh|apply K4; [apply Hh|done]].
  destruct (call_ok s2 (WRecRewatch (nameof h) (nameof p) (wt (st_tree s2) h) (wt (st_tree s2) p))) as (s3&->&G1&G2&G3&G4).
  - by rewrite K3.
  - cbn [legal]. rewrite K3, Hv. cbn. rewrite Hx, K6 by left. split_and!; try done; [apply wt_int|].
    intros _. apply eq_None_not_Some. by apply Hno.
  - exists s3. split; [done|]. rewrite K3 in G3. cbn [os_step] in G3. split.
    2:{ intros y. rewrite G3. destruct (decide (y = nameof p)) as [|Hy]; [by left|]. rewrite lookup_insert_ne by done.
        intros [v' [_ Hv']%lookup_delete_Some]. right. eauto. }
    split; [|done|by rewrite G2, K2]. rewrite G1, G3. apply K7.
    + by rewrite lookup_insert.
    + intros q ->%elem_of_list_singleton. by rewrite lookup_insert_ne, lookup_delete.
    + intros x Hx1 Hx2. rewrite lookup_insert_ne, lookup_delete_ne; try done. intros <-. by apply (Hx2 h ltac:(left)).
    + intros x Hx1 [v' Hv']. rewrite lookup_insert_ne in Hv' |- * by done. apply lookup_delete_Some in Hv' as [? ?].
      by rewrite lookup_delete_ne.
Qed.
Lemma case2_many_ok s p l :
  sound s → rpath p → is_Some (st_tree s !! p) →
  (∀ q, rpath q → q `prefix_of` p → ¬ watched (osm s) q) → wt (st_tree s) p = 0 → NoDup l →
  (∀ q, q ∈ l ↔ rpath q ∧ above p q ∧ watched (osm s) q) → (∀ q, q ∈ l → wp_at (st_tree s) q ≠ ∅) →
  ∃ s', case2_many E s p l c e = (s', ROk) ∧ sound s' ∧ grows p s s'.
Proof.
  intros Hso Hp Hs Hno Hz Hnd Hin Hne. pose proof Hso as [Ht Hl Hc]. unfold case2_many.
  destruct (case2_common s p l Hso Hp Hs Hno Hz Hin Hne) as (K1&K2&K3&K4&K5&K6&K7).
  set (s2 := foldl _ (rwatchAdd E s p c e).1 l) in *. cbv zeta.
  rewrite !(watchTotal_wt P E) by done. rewrite !(rinv_name _ _ _ _ _ _ K1); try done; [|apply Hp|apply K4; [apply Hp|done]].
  destruct (call_ok s2 (WRecWatch (nameof p) (wt (st_tree s2) p))) as (s3&->&G1&G2&G3&G4).
  - by rewrite K3.
  - cbn [legal]. rewrite K3. split_and!; try done; [|apply wt_int]. apply eq_None_not_Some. by apply Hno.
  - rewrite K3 in G3. cbn [os_step] in G3.
    assert (∀ h, h ∈ l → nameof h ≠ nameof p) as Hnp.
    { intros h (X1&X2&X3)%Hin K. apply Hinj in K as ->; try done. by apply (proj2 X2). }
    destruct (unwatch_ok l s3) as (s4&->&F1&F2&F3&F4&F5&F6); try done.
    + by rewrite G1.
    + intros h Hh. pose proof Hh as (X1&X2&X3)%Hin. rewrite G1, G3. split_and!; [done| |].
      * apply K4; [apply X1|]. destruct X3 as [v Hv]. by destruct (td_at P sepc w isvol strict Hinj _ _ _ _ Ht X1 Hv) as (_&_&?&_).
      * rewrite lookup_insert_ne; [done|]. intros K. by apply (Hnp h Hh).
    + exists s4. split; [done|]. split.
      2:{ intros y Hy. rewrite F6, G3 in Hy by done. destruct (decide (y = nameof p)) as [|Hyp]; [by left|].
          rewrite lookup_insert_ne in Hy by done. by right. }
      split; [|done|by rewrite F2, G2, K2]. rewrite F1, G1. apply K7.
      * rewrite F5, G3; [by rewrite lookup_insert|]. intros h Hh K. by apply (Hnp h Hh).
      * done.
      * intros x Hx1 Hx2. by rewrite F5, G3, lookup_insert_ne.
      * intros x Hx1 Hx2. rewrite F6 by done. by rewrite G3, lookup_insert_ne.
Qed.
End watch.
Lemma tidy_more t t' m : tidy t m → rinv t' → (∀ q, wp_at t' q = wp_at t q) → (∀ q, is_Some (t !! q) → is_Some (t' !! q)) → tidy t' m.
Proof.
  intros Ht Hi Hw Hn. assert (∀ h, wt t' h = wt t h ∧ (wrec t' h ↔ wrec t h)) as Hx by (intros h; by apply (wt_ext P)).
  split; [done|..].
  - intros q. rewrite Hw. apply (td_wp _ _ _ _ _ _ _ Ht).
  - intros x v Hv. destruct (td_os _ _ _ _ _ _ _ Ht x v Hv) as (h&K1&K2&K3&K4&K5&K6). exists h.
    destruct (Hx h) as [-> X]. split_and!; auto. intros [? K]. apply K6. split; [done|]. by apply X.
  - apply (td_anti _ _ _ _ _ _ _ Ht).
  - intros h Hh. rewrite (proj1 (Hx h)). by apply (td_top _ _ _ _ _ _ _ Ht).
  - intros h k i Hh. rewrite Hw. intros K. destruct (td_in _ _ _ _ _ _ _ Ht h k i Hh K) as (q&?&?&?). exists q. by rewrite Hw.
  - intros h q k i. rewrite !Hw. apply (td_cov _ _ _ _ _ _ _ Ht).
Qed.

(** ** Watch *)
Lemma rec_Watch_ok s p isrec n e :
  sound s → rpath p → u32 e → user_ev P e → e ≠ 0 →
  (strict = true → ∀ q x, rpath q → q `prefix_of` p → (q ≠ p ∨ isrec = true) → osm s !! nameof q = Some (x, false) → ¬ incl_ev e x) →
  (∀ q, rpath q → above p q → watched (osm s) q → ∃ n, rgs (st_tree s) q n ≠ 0) →
  ∃ s', rec_Watch E s (nameof p) isrec (KUser n) e = (s', ROk) ∧ sound s' ∧ grows p s s'.
Proof.
  intros [Ht Hl Hc] Hp Hu Hue Hne HA HB. unfold rec_Watch. rewrite HEp.
  set (e' := if isrec then e .| recursive P else e).
  assert (disj_ev (recursive P) (omit P)) as Hro by (apply d_re_om; done).
  assert (e' .&^ internal P = e) as Hvis.
  { unfold e'. unfold user_ev, internal in *. destruct isrec; clear - Hue; bits. }
  assert (good e') as He.
  { split_and!; [| |by rewrite Hvis].
    - unfold e', user_ev, internal in *. destruct isrec; clear - Hro Hue; bits.
    - unfold e'. destruct isrec; [|done]. apply u32_lor; [done|]. by apply u32_recursive. }
  assert (isrec = true ↔ e' .& recursive P ≠ 0) as Hrec.
  { unfold e'. destruct isrec.
    - split; [|done]. intros _ K.
      assert (recursive P = 0) as K' by (clear - K; bits). by apply (nz_re P HP).
    - split; [done|]. intros K. exfalso. apply K. unfold user_ev, internal in Hue. clear - Hue. bits. }
  destruct (rec_add_spec P sepc w isvol E (st_tree s) p HE (td_inv _ _ _ _ _ _ _ Ht) Hp) as (t1&Hadd&Ht1&Hs1&Hold&Hwp&_).
  pose proof (find_spec P HP sepc w isvol E (st_tree s) p HE (td_inv _ _ _ _ _ _ _ Ht) Hp) as Hf. rewrite Hadd.
  assert (∀ q, is_Some (st_tree s !! q) → is_Some (t1 !! q)) as Hn1 by (intros q K; by rewrite Hold).
  assert (sound (with_tree s t1)) as Hso by (split; [by eapply tidy_more|done..]).
  assert (∀ s0 x, osm s0 = osm s → (∃ s' : st, x = (s', ROk) ∧ sound s' ∧ grows p s0 s') → ∃ s' : st, x = (s', ROk) ∧ sound s' ∧ grows p s s') as Hgr.
  { intros s0 x H0 (s'&K1&K2&K3). exists s'. split_and!; try done. unfold grows in *. by rewrite <-H0. }
  destruct (find_parent E (st_tree s) (nameof p)) as [[h self]|].
  - destruct Hf as (Hpre&->&Hnz&Hsh&Hab). rewrite (watchTotal_wt P E) in Hnz by done.
    assert ([] ∉ h) as Hh by (eapply plain_prefix; [done|apply Hp]).
    destruct (td_topmost P sepc w isvol strict Hinj _ _ h Ht Hh Hnz) as [Hrh Wh].
    { intros q K1 K2. rewrite <-(watchTotal_wt P E) by done. by apply Hab. }
    case_bool_decide as Hhp.
    + subst h. apply (Hgr (with_tree s t1)); [done|]. apply case1_self; try done. intros Hst Hr x Hx. rewrite Hvis. apply (HA Hst p x); auto.
    + apply (Hgr (with_tree s t1)); [done|]. apply case1_below; try done. intros Hst x Hx. rewrite Hvis. apply (HA Hst h x); auto.
  - assert (∀ q, q `prefix_of` p → (w = true → q ≠ []) → wt (st_tree s) q = 0) as Hf0.
    { intros q K1 K2. rewrite <-(watchTotal_wt P E) by done. by apply Hf. } clear Hf.
    assert (∀ q, rpath q → q `prefix_of` p → ¬ watched (osm s) q) as Hno.
    { intros q K1 K2 [v Hv]. destruct (td_at P sepc w isvol strict Hinj _ _ _ _ Ht K1 Hv) as (_&K&_). apply K, Hf0; [done|].
      intros _. by apply (rpath_ne sepc w isvol). }
    assert (wt t1 p = 0) as Hz.
    { rewrite (proj1 (wt_ext P (st_tree s) t1 p (Hwp _) (Hwp _))). apply Hf0; [done|]. intros _. by apply (rpath_ne sepc w isvol). }
    assert (∀ q, rpath q → above p q → watched (osm s) q → wp_at (st_tree s) q ≠ ∅) as Hwne.
    { intros q K1 K2 K3 K4. destruct (HB q K1 K2 K3) as [k Hk]. rewrite rgs_plain in Hk by apply K1.
      unfold RecFacts.rureg in Hk. by rewrite K4, wget_empty in Hk. }
    assert (∀ q, wpt (wp_at (st_tree s) q)) as Hw0 by apply (td_wp _ _ _ _ _ _ _ Ht).
    assert (∀ q, wp_at (st_tree s) q ≠ ∅ → wt (st_tree s) q ≠ 0) as Hwt0.
    { intros q K1 K2. by apply (wt_zero P) in K2 as [K2 _]. }
    destruct (collect_spec P HP sepc w isvol E HE (with_tree s t1) p Ht1 Hs1) as [Hnd Hin].
    pose proof (collect_tree E (with_tree s t1) p) as (Hc1&Hc2&Hc3).
    destruct (collect E (with_tree s t1) p) as [s2 l]. cbn [fst snd st_tree st_log st_panic with_tree] in *.
    assert (sound s2) as Hso2 by (split; rewrite ?Hc1, ?Hc2, ?Hc3; apply Hso).
    assert (∀ h, h ∈ l ↔ rpath h ∧ above p h ∧ watched (osm s) h) as Hl2.
    { intros h. rewrite Hin. split.
      - intros ([K1 (r&->&Kr)]&K2&K3). rewrite Hwp in K2.
        assert ([] ∉ p ++ r) as Hpl. { rewrite elem_of_app. intros [?|?]; [by apply (proj1 Hp)|done]. }
        destruct (td_top _ _ _ _ _ _ _ Ht _ Hpl (Hwt0 _ K2)) as (q&Q1&Q2&Q3).
        destruct (prefix_weak_total _ _ _ Q2 (prefix_app_r p p r ltac:(done))) as [Q4|Q4]; [by destruct (Hno q Q1 Q4)|].
        assert (q ≠ p) as Hqp by (intros ->; by apply (Hno p)).
        assert (above p q) as Hapq by (split; [done|congruence]).
        destruct (decide (q = p ++ r)) as [<-|Hqr]; [done|]. exfalso.
        apply (Hwne q Q1 Hapq Q3). rewrite <-Hwp. by apply K3.
      - intros (K1&K2&K3). pose proof (Hwne h K1 K2 K3) as Hwh. rewrite Hwp. destruct K3 as [v Hv].
        destruct (td_at P sepc w isvol strict Hinj _ _ _ _ Ht K1 Hv) as (_&_&Hsh&_). split_and!; [|done|].
        + split; [auto|]. destruct K2 as [[r ->] _]. exists r. split; [done|]. intros K. apply (proj1 K1), elem_of_app. by right.
        + intros q Q1 Q2. rewrite Hwp. destruct (decide (wp_at (st_tree s) q = ∅)) as [|Hq]; [done|]. exfalso.
          assert ([] ∉ q) as Hqpl by (eapply plain_prefix; [apply Q2|apply K1]).
          destruct (td_top _ _ _ _ _ _ _ Ht q Hqpl (Hwt0 _ Hq)) as (q'&X1&X2&X3).
          assert (q' = h) as ->. { apply (td_uniq P sepc w isvol strict _ _ q' h h Ht X1 K1 X3); [by exists v|etrans; [exact X2|apply Q2]|done]. }
          apply (proj2 Q2). apply (anti_symm prefix); [apply Q2|done]. }
    assert (∀ q, q ∈ l → wp_at (st_tree s2) q ≠ ∅) as Hlne.
    { intros q (K1&K2&K3)%Hl2. rewrite Hc1, Hwp. by apply Hwne. }
    assert (osm s2 = osm s) as Hm2 by (by rewrite Hc2).
    rewrite <-Hm2 in Hno, Hl2. rewrite <-Hc1 in Hz, Hs1. destruct l as [|k [|k' l]].
    + apply (Hgr s2); [done|]. apply case3_ok; try done. intros h K1 K2 K3. assert (h ∈ ([] : list path)) as K by (by apply Hl2). by apply elem_of_nil in K.
    + apply (Hgr s2); [done|]. apply case2_one_ok; try done. apply Hlne. left.
    + apply (Hgr s2); [done|]. by apply case2_many_ok.
Qed.
End env.
End order.
