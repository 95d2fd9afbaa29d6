(** * NonRecReg: histories of the non-recursive tree and their registrations *)
From Verif Require Import Base Event Watchpoint WatchpointFacts Paths PathsFacts Loop LoopFacts
  Node NodeFacts SpecTree WalkFacts RootFacts NonRec NonRecWp SpecNonRec NonRecFacts NonRecOps.
Local Open Scope N_scope.

Section reg.
Context (P : platform) (HP : platform_ok P) (sepc : ascii).
Notation render := (render sepc).
Notation nenv := (nenv P sepc).
Notation wp_ok := (wp_ok P).
Notation tinv := (tinv P sepc).
Notation recx := (recx P).

Lemma gpath_upath p : gpath sepc p → upath sepc p.
Proof.
  intros (H1&H2&H3). split_and!; [done|done|]. intros Hin. apply H3.
  destruct p as [|k p _] using rev_ind; [done|]. rewrite removelast_snoc in Hin. set_solver.
Qed.
Lemma upath_spells E p : nenv E → upath sepc p → spells sepc (e_vol E) false p (render p).
Proof. intros HE (H1&H2&H3). split_and!; try done. apply HE. Qed.

(** ** Add *)
Lemma nr_add_spec E t p :
  nenv E → tinv t → upath sepc p →
  ∃ t', r_add (e_sep E) (e_vol E) t (render p) = (t', Some p) ∧ tinv t' ∧ is_Some (t' !! p) ∧
    (∀ q, wp_at t' q = wp_at t q) ∧
    ∀ q, t' !! q = match t !! q with
      | Some nd => Some nd
      | None => if decide (q ≠ [] ∧ q `prefix_of` p) then Some (newnode (render q)) else None
      end.
Proof.
  intros HE Ht Hp. pose proof (upath_spells E p HE Hp) as Hsp. rewrite (ne_sep _ _ _ HE).
  destruct (r_add_spec sepc (e_vol E) false t p (render p) (ti_wf _ _ _ Ht) Hsp) as [H1 H2].
  pose proof (tree_wf_add sepc (e_vol E) false t p (render p) (ti_wf _ _ _ Ht) Hsp) as H3.
  destruct (r_add sepc (e_vol E) t (render p)) as [t' h]. simpl in *. subst h.
  exists t'. split_and!; [done| | | |done].
  - split; [done| |].
    + intros q. rewrite H2. destruct (t !! q) eqn:Eq; [intros _; eapply ti_comps; eauto|].
      case_decide as Hd; [|by intros []]. intros _. destruct Hd as [_ [r ->]].
      destruct Hp as (_&Hc&_). by apply Forall_app in Hc as [? _].
    + intros q nd. rewrite H2. destruct (t !! q) eqn:Eq; [intros [= <-]; by eapply ti_wp|].
      case_decide; [|done]. intros [= <-]. exists ∅. split; [done|]. apply wp_ok_empty.
  - rewrite H2. destruct (t !! p); [eauto|]. rewrite decide_True; [eauto|]. split; [apply Hp|done].
  - intros q. unfold wp_at. rewrite H2. destruct (t !! q); [done|]. by case_decide.
Qed.

(** ** Path walks with total callbacks *)
Lemma along_cnil {A} (fn : A → path → bool → A * cb) t p k m a :
  (∀ a q b, (fn a q b).2 = CNil) →
  ∃ j, (j ≤ m)%nat ∧ (∀ n, (k ≤ n < k + j)%nat → is_Some (t !! take n p)) ∧
    ((j < m)%nat → t !! take (k + j) p = None) ∧
    along fn t a ((λ n, (take n p, bool_decide (n = length p))) <$> seq k m) =
      (foldl (λ a n, (fn a (take n p) (bool_decide (n = length p))).1) a (seq k j),
       if decide (j = m) then WPOk else WPNotExist).
Proof.
  intros Hfn. revert k a. induction m as [|m IH]; intros k a; simpl.
  - exists 0%nat. split_and!; [lia|lia|lia|done].
  - destruct (t !! take k p) as [nd|] eqn:Ek.
    + specialize (Hfn a (take k p) (bool_decide (k = length p))).
      destruct (fn a (take k p) (bool_decide (k = length p))) as [a' r] eqn:Ef. simpl in Hfn. subst r.
      destruct (IH (S k) a') as (j&H1&H2&H3&H4). exists (S j). split_and!.
      * lia.
      * intros n Hn. destruct (decide (n = k)) as [->|Hne]; [eauto|]. apply H2. lia.
      * intros Hlt. replace (k + S j)%nat with (S k + j)%nat by lia. apply H3. lia.
      * etrans; [apply H4|]. cbn [seq foldl]. rewrite Ef. cbn [fst].
        destruct (decide (j = m)) as [->|Hjm]; [by rewrite !decide_True|by rewrite !decide_False by lia].
    + exists 0%nat. split_and!; [lia|lia| |done].
      intros _. by rewrite Nat.add_0_r.
Qed.
Lemma walkpath_cnil {A} E (fn : A → path → bool → A * cb) t p a :
  nenv E → tinv t → upath sepc p → (∀ a q b, (fn a q b).2 = CNil) →
  ∃ d, (d ≤ length p)%nat ∧ (∀ n, (n ≤ d)%nat → is_Some (t !! take n p)) ∧
    ((d < length p)%nat → t !! take (S d) p = None) ∧
    r_walkpath (e_sep E) (e_vol E) fn t a (render p) =
      (foldl (λ a n, (fn a (take n p) (bool_decide (n = length p))).1) a (seq 0 (S d)),
       if decide (d = length p) then WPOk else WPNotExist).
Proof.
  intros HE Ht Hp Hfn. rewrite (ne_sep _ _ _ HE).
  rewrite (r_walkpath_spec sepc (e_vol E) false fn t a p (render p) (ti_wf _ _ _ Ht) (upath_spells E p HE Hp)).
  unfold chain. rewrite Nat.sub_0_r.
  destruct (along_cnil fn t p 0 (S (length p)) a Hfn) as (j&H1&H2&H3&H4).
  destruct j as [|d].
  { exfalso. specialize (H3 ltac:(lia)). rewrite Nat.add_0_r, take_0 in H3. destruct (twf_root _ _ _ (ti_wf _ _ _ Ht)). congruence. }
  exists d. split_and!.
  - lia.
  - intros n Hn. apply H2. lia.
  - intros Hlt. apply H3. lia.
  - rewrite H4. destruct (decide (d = length p)) as [->|Hjm]; [by rewrite !decide_True|by rewrite !decide_False by lia].
Qed.

Lemma wget_nz wp k x : negb (wget wp k =? 0) && x = true → wp !! k = Some (wget wp k).
Proof. unfold wget. by destruct (wp !! k). Qed.
(** ** internal, creation *)
Lemma internal_fold t p d :
  tinv t → 
  let r := foldl (λ a n, (internal_fn t a (take n p) (bool_decide (n = length p))).1) (internal P, None) (seq 0 (S d)) in
  r.2 = Some (take d p) ∧
  (r.1 = internal P ∨ ∃ n, (n ≤ d)%nat ∧ wp_at t (take n p) !! KRec = Some r.1) ∧
  (internal P ≤ r.1) ∧
  (∀ n, (n ≤ d)%nat → wget (wp_at t (take n p)) KRec ≤ r.1).
Proof.
  intros Ht. cbn zeta. induction d as [|d IH].
  - simpl. split_and!; [done| | |].
    + destruct (negb _ && _) eqn:Eb; [|by left]. right. exists 0%nat. split; [lia|].
      rewrite take_0. by eapply wget_nz.
    + destruct (negb _ && _) eqn:Eb; [|done]. apply andb_true_iff in Eb as [_ Eb]. apply N.ltb_lt in Eb. by apply N.lt_le_incl.
    + intros n Hn. replace n with 0%nat by lia. rewrite take_0.
      destruct (negb _ && _) eqn:Eb; [done|].
      apply andb_false_iff in Eb as [Eb|Eb].
      * apply negb_false_iff, N.eqb_eq in Eb. rewrite Eb. apply N.le_0_l.
      * by apply N.ltb_ge in Eb.
  - rewrite seq_S, foldl_app. simpl (foldl _ _ [_]).
    set (r := foldl _ _ _) in *. destruct IH as (H1&H2&H3&H4).
    unfold internal_fn. cbn [fst snd]. split_and!; [done| | |].
    + destruct (negb _ && _) eqn:Eb; [|destruct H2 as [H2|(n&?&?)]; [by left|right; exists n; split; [lia|done]]]. right. exists (S d). split; [lia|].
      by eapply wget_nz.
    + destruct (negb _ && _) eqn:Eb; [|done]. apply andb_true_iff in Eb as [_ Eb]. apply N.ltb_lt in Eb. lia.
    + intros n Hn. destruct (decide (n = S d)) as [->|Hne].
      * destruct (negb _ && _) eqn:Eb; [done|].
        apply andb_false_iff in Eb as [Eb|Eb].
        -- apply negb_false_iff, N.eqb_eq in Eb. rewrite Eb. apply N.le_0_l.
        -- by apply N.ltb_ge in Eb.
      * specialize (H4 n ltac:(lia)). destruct (negb _ && _) eqn:Eb; [|done].
        apply andb_true_iff in Eb as [_ Eb]. apply N.ltb_lt in Eb. lia.
Qed.

(** [nr_internal] on anything but a removal: nothing, or AddDir at the node of the
    path (added if missing) with the largest entry of the internal channel found
    on the way. *)
Lemma internal_create_cases E s ev p :
  nenv E → tinv (st_tree s) → gpath sepc p → ev ≠ Remove P →
  let s' := nr_internal E s (EI ev (render p) (Some true) fTypeDirectory) in
  (s' = s ∧ ∀ q, q `prefix_of` p → wp_at (st_tree s) q !! KRec = None) ∨
  ∃ q t1 e r, q `prefix_of` p ∧ wp_at (st_tree s) q !! KRec = Some e ∧
    (∀ q', q' `prefix_of` p → wget (wp_at (st_tree s) q') KRec ≤ e) ∧
    tinv t1 ∧ is_Some (t1 !! p) ∧ (∀ q, wp_at t1 q = wp_at (st_tree s) q) ∧
    (∀ q nd, st_tree s !! q = Some nd → t1 !! q = Some nd) ∧
    (∀ q nd, st_tree s !! q = None → t1 !! q = Some nd → q `prefix_of` p ∧ ∃ nm, nd = newnode nm) ∧
    nd_adddir E (recFunc E e) (with_tree s t1) p = (s', r).
Proof.
  intros HE Ht Hg Hev. cbn zeta. unfold nr_internal. cbn [ei_event ei_path].
  rewrite (ne_plat _ _ _ HE). rewrite (proj2 (N.eqb_neq _ _) Hev).
  pose proof (gpath_upath p Hg) as Hu.
  destruct (walkpath_cnil E (internal_fn (st_tree s)) (st_tree s) p (internal P, None) HE Ht Hu)
    as (d&Hd&Hpre&Hmiss&Hw); [done|]. rewrite Hw.
  destruct (internal_fold (st_tree s) p d Ht) as (H1&H2&H3&H4).
  destruct (foldl _ (internal P, None) (seq 0 (S d))) as [eset nd]. simpl in H1, H2, H3, H4. subst nd.
  assert (∀ q, q `prefix_of` p → ∃ n, q = take n p ∧ (n ≤ length p)%nat) as Hpt.
  { intros q [r ->]. exists (length q). rewrite take_app, app_length. split; [done|lia]. }
  assert (∀ n, (d < n)%nat → (n ≤ length p)%nat → st_tree s !! take n p = None) as Hmiss'.
  { intros n Hn Hnl. destruct (st_tree s !! take n p) eqn:En; [|done]. exfalso.
    specialize (Hmiss ltac:(lia)).
    assert (is_Some (st_tree s !! take (S d) p)) as [? ?]; [|congruence].
    eapply closed_prefix; [by eapply tinv_closed| |by eexists].
    exists (drop (S d) (take n p)). rewrite <-(take_drop (S d) (take n p)) at 1.
    by rewrite take_take, Nat.min_l by lia. }
  assert (∀ q, q `prefix_of` p → wget (wp_at (st_tree s) q) KRec ≤ eset) as Hmax.
  { intros q (n&->&Hn)%Hpt. destruct (decide (n ≤ d)%nat); [by apply H4|].
    unfold wp_at. rewrite Hmiss' by lia. unfold wget. rewrite lookup_empty. apply N.le_0_l. }
  destruct (N.eqb_spec eset (internal P)) as [He|He].
  { left. split; [done|]. intros q Hq. destruct (wp_at (st_tree s) q !! KRec) as [x|] eqn:Ex; [|done].
    exfalso. specialize (Hmax q Hq). rewrite (wget_Some _ _ _ Ex), He in Hmax.
    assert (incl_ev (recbits P) x) as Hx by (eapply wo_rec; [by eapply tinv_wp_at|exact Ex]).
    (* x contains Create and the internal bits *)
    assert (internal P .| Create P = internal P + Create P) as Hsum.
    { assert (internal P .& Create P = 0) as Hz.
      { apply land_zero_disj. pose proof (d_cr_int P HP) as Hci. clear - Hci. bits. }
      rewrite N.add_nocarry_lxor by done. by rewrite N.lxor_lor. }
    assert (internal P .| Create P ≤ x) as Hle.
    { assert (N.ldiff (internal P .| Create P) x = 0) as Hz.
      { unfold recbits, internal in *. clear - Hx. bits. }
      apply N.ldiff_le. exact Hz. }
    rewrite Hsum in Hle. pose proof (nz_cr P HP). lia. }
  destruct H2 as [H2|(n&Hn&Hn2)]; [done|]. right.
  assert (take d p `prefix_of` p) as Hdp by (exists (drop d p); by rewrite take_drop).
  assert ([] ∉ take d p) as Hnd.
  { intros Hin. destruct Hg as (_&_&Hg). apply Hg. rewrite <-(take_drop d p). set_solver. }
  assert (name_at (st_tree s) (take d p) = render (take d p)) as Hnm.
  { apply (tinv_name P); [done|done|]. by apply Hpre. }
  assert (render p = name_at (st_tree s) (take d p) ↔ d = length p) as Heqn.
  { rewrite Hnm. split.
    - intros Hr. apply render_inj in Hr.
      + apply (f_equal length) in Hr. rewrite take_length in Hr. lia.
      + apply Hg.
      + destruct Hg as (_&Hc&_). rewrite <-(take_drop d p) in Hc. by apply Forall_app in Hc as [? _].
    - intros ->. by rewrite firstn_all. }
  assert (∃ t1, (if decide (render p = name_at (st_tree s) (take d p)) then (st_tree s, Some (take d p))
      else nd_add (e_sep E) (st_tree s) (take d p) (render p)) = (t1, Some p) ∧
    tinv t1 ∧ is_Some (t1 !! p) ∧ (∀ q, wp_at t1 q = wp_at (st_tree s) q) ∧
    (∀ q nd, st_tree s !! q = Some nd → t1 !! q = Some nd) ∧
    (∀ q nd, st_tree s !! q = None → t1 !! q = Some nd → q `prefix_of` p ∧ ∃ nm, nd = newnode nm)) as (t1&Heq&Ht1).
  { destruct (decide (render p = name_at (st_tree s) (take d p))) as [Ed|Ed].
    - apply Heqn in Ed. exists (st_tree s). rewrite Ed, firstn_all. split_and!; try done; [|naive_solver].
      specialize (Hpre d ltac:(lia)). by rewrite Ed, firstn_all in Hpre.
    - assert (drop d p ≠ []) as Hne.
      { intros Hz. apply Ed, Heqn. apply (f_equal length) in Hz. rewrite drop_length in Hz. simpl in Hz. lia. }
      destruct Hg as (Hg1&Hg2&Hg3).
      assert (comps_ok sepc (drop d p)) as Hco.
      { rewrite <-(take_drop d p) in Hg2. by apply Forall_app in Hg2 as [_ ?]. }
      rewrite (ne_sep _ _ _ HE).
      assert (render p = name_at (st_tree s) (take d p) ++ render (drop d p)) as Hrp.
      { rewrite Hnm, <-render_app. by rewrite take_drop. }
      rewrite Hrp. rewrite nd_add_spec by done. rewrite take_drop. rewrite Hnm.
      set (t1 := addc sepc (st_tree s) (take d p) (render (take d p)) (drop d p)).
      assert (∀ q, t1 !! q = match st_tree s !! q with Some nd => Some nd
         | None => if decide (take d p `prefix_of` q ∧ q ≠ take d p ∧ q `prefix_of` p) then Some (newnode (render q)) else None end) as Hl.
      { intros q. unfold t1. rewrite lookup_addc. destruct (st_tree s !! q) eqn:Eq; [done|].
        destruct (strip (take d p) q) as [[|x r]|] eqn:Es.
        - apply strip_Some in Es. rewrite app_nil_r in Es. subst q. by rewrite decide_False by naive_solver.
        - apply strip_Some in Es. subst q. rewrite <-render_app.
          destruct (decide (x :: r `prefix_of` drop d p)) as [Hpr|Hpr].
          + rewrite decide_True; [done|]. split_and!; [by apply prefix_app_r| |].
            * intros Hz. apply (f_equal length) in Hz. rewrite app_length in Hz. simpl in Hz. lia.
            * destruct Hpr as [r' Hr']. exists r'. rewrite <-(take_drop d p) at 1. by rewrite Hr', app_assoc.
          + rewrite decide_False; [done|]. intros (_&_&Hz). apply Hpr.
            rewrite <-(take_drop d p) in Hz at 2. by apply prefix_app_inv in Hz.
        - apply strip_None in Es. by rewrite decide_False by naive_solver. }
      exists t1. split_and!; [done| | | | |].
      + split; [split| |].
        * rewrite Hl. by destruct (twf_root _ _ _ (ti_wf _ _ _ Ht)) as [? ->].
        * intros q k. rewrite !Hl. destruct (st_tree s !! (q ++ [k])) as [x|] eqn:Eq.
          -- intros _. destruct (tinv_closed _ _ _ Ht q k) as [y Hy]; [eauto|]. rewrite Hy. eauto.
          -- destruct (decide (take d p `prefix_of` q ++ [k] ∧ q ++ [k] ≠ take d p ∧ q ++ [k] `prefix_of` p)) as [Hd1|]; [|by intros []]. intros _. destruct Hd1 as (Hd1&Hd2&Hd3).
             apply prefix_snoc_cases in Hd1 as [Hd1|Hd1]; [|by destruct Hd2].
             destruct (decide (q = take d p)) as [->|Hq].
             ++ destruct (Hpre d) as [? ->]; [lia|eauto].
             ++ destruct (st_tree s !! q); [eauto|]. rewrite decide_True; [eauto|].
                split_and!; [done|done|]. by eapply snoc_prefix_of.
        * intros q nd. rewrite Hl. destruct (st_tree s !! q) eqn:Eq.
          -- intros [= <-]. by apply (twf_name _ _ _ (ti_wf _ _ _ Ht)).
          -- destruct (decide (_ ∧ _ ∧ _)); [|done]. by intros [= <-].
        * intros q. rewrite Hl. destruct (st_tree s !! q) eqn:Eq.
          -- intros _. eapply ti_comps; eauto.
          -- destruct (decide (_ ∧ _ ∧ _)) as [Hd1|]; [|by intros []]. intros _. destruct Hd1 as (_&_&[r Hr]). rewrite Hr in Hg2. by apply Forall_app in Hg2 as [? _].
        * intros q nd. rewrite Hl. destruct (st_tree s !! q) eqn:Eq.
          -- intros [= <-]. by eapply ti_wp.
          -- destruct (decide (_ ∧ _ ∧ _)); [|done]. intros [= <-]. exists ∅. split; [done|apply wp_ok_empty].
      + rewrite Hl. destruct (st_tree s !! p); [eauto|]. rewrite decide_True; [eauto|].
        split_and!; [done| |done]. intros Hz. apply Hne. apply (f_equal length) in Hz. rewrite take_length in Hz.
        apply nil_length_inv. rewrite drop_length. lia.
      + intros q. unfold wp_at. rewrite Hl. destruct (st_tree s !! q); [done|]. by destruct (decide (_ ∧ _ ∧ _)).
      + intros q nd Hq. by rewrite Hl, Hq.
      + intros q nd Hq. rewrite Hl, Hq. destruct (decide (_ ∧ _ ∧ _)) as [Hd1|]; [|done]. intros [= <-].
        split; [apply Hd1|eauto]. }
  rewrite Heq. destruct (nd_adddir E (recFunc E eset) (with_tree s t1) p) as [s' r] eqn:Ea.
  exists (take n p), t1, eset, r. split_and!; try (done || apply Ht1).
  - exists (drop n p). by rewrite take_drop.
Qed.

End reg.
