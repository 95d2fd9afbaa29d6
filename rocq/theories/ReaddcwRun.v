(** * ReaddcwRun: facts about all executions of the Windows watcher, and running it *)
From Verif Require Import Base Event Watchpoint WatchpointFacts Readdcw SpecReaddcw ReaddcwFacts ReaddcwLoop.
Local Open Scope N_scope.

(** ** What is asked of the OS in any execution *)
Section ask.
Context (tr : list rlabel).
Definition good_set (p : str) (f : N) : Prop :=
  ∃ e st, f = e .| st ∧ incl_ev st onlyMachineStates ∧ requestable e ∧ asked tr p e.
Definition good_grip (p : str) (f : N) : Prop :=
  ∃ e st, incl_ev st onlyMachineStates ∧ requestable e ∧ asked tr p e ∧
    (f = (e .| st) .&^ DN ∨ f = e .| st .| dirmarker ∧ e .& dset ≠ 0).
Definition good_read (p : str) (f : N) : Prop :=
  ∃ e, requestable e ∧ asked tr p e ∧ ((∀ i, has f i ↔ native_bit (e .&^ DN) i) ∨ f = DN ∧ e .& dset ≠ 0).
Record askinv (s : rstate) : Prop := {
  ai_wd : ∀ i x, rs_wds s !! i = Some x → good_set (w_path x) (w_filter x);
  ai_gr : ∀ g gr, rs_grips s !! g = Some gr → ∃ x, rs_wds s !! g_parent gr = Some x ∧ good_grip (w_path x) (g_filter gr);
  ai_rd : ∀ r, r ∈ rs_reads s → ∃ gr x, rs_grips s !! r_grip r = Some gr ∧ rs_wds s !! g_parent gr = Some x ∧ good_read (w_path x) (r_filter r);
  ai_wn : ∀ i x, rs_wds s !! i = Some x → (i < rs_next s)%nat;
  ai_gn : ∀ g gr, rs_grips s !! g = Some gr → (g < rs_next s)%nat;
  ai_own : ∀ i x g, rs_wds s !! i = Some x → g ∈ grips_of x → ∃ gr, rs_grips s !! g = Some gr ∧ g_parent gr = i;
  ai_tab : ∀ p i, rs_tab s !! p = Some i → ∃ x, rs_wds s !! i = Some x ∧ w_path x = p;
}.
Lemma encode_good p f : good_grip p f → good_read p (rd_encode f).
Proof.
  intros (e&st&Hst&He&Ha&[->|[-> Hd]]); exists e; (split_and!; [done|done|]).
  - left. intros i.
    assert (rd_encode ((e .| st) .&^ DN) = rd_encode (e .&^ DN)) as ->.
    { unfold rd_encode. assert ((e .| st) .&^ DN .& (onlyNGlobalEvents .| onlyNotifyChanges) = e .&^ DN .& (onlyNGlobalEvents .| onlyNotifyChanges)) as ->; [|done].
      apply has_ext. intros j. rewrite !has_land, !has_ldiff, !has_lor.
      assert (disj_ev onlyMachineStates (onlyNGlobalEvents .| onlyNotifyChanges)) as K by (apply land_zero_disj; by vm_compute).
      specialize (K j). specialize (Hst j). rewrite has_lor in K. split.
      - intros [[[H|H] H'] H'']; [done|]. destruct (K (Hst H) H'').
      - intros [[H H'] H'']. split; [split; [by left|done]|done]. }
    assert (requestable (e .&^ DN)) as He' by (intros j [Hj _]%has_ldiff; by apply He).
    rewrite encode_full by (by apply requestable_26). split; [|by left]. intros [|[H1 H2]]; [done|]. exfalso. by eapply requestable_others.
  - right. split; [|done]. unfold rd_encode.
    assert (nonzero ((e .| st .| dirmarker) .& (onlyNGlobalEvents .| onlyNotifyChanges) .& dirmarker) = true) as ->; [|done].
    rewrite negb_true_iff, N.eqb_neq. apply nonzero_bit. exists 26. rewrite !has_land, has_lor. split_and!; [by right|by vm_compute|by vm_compute].
Qed.
Lemma ask_wd s i x : askinv s → good_set (w_path x) (w_filter x) → (i < rs_next s)%nat →
  (∀ x0, rs_wds s !! i = Some x0 → w_path x = w_path x0) →
  (∀ g, g ∈ grips_of x → ∃ gr, rs_grips s !! g = Some gr ∧ g_parent gr = i) → askinv (set_wd s i x).
Proof.
  intros [A1 A2 A3 A4 A5 A6 A7] Hg Hi Hp Ho. split; cbn [rs_wds rs_grips rs_reads rs_next rs_tab set_wd]; try done.
  - intros j y. destruct (decide (j = i)) as [->|Hne]; [rewrite lookup_insert; by intros [= <-]|rewrite lookup_insert_ne by done; apply A1].
  - intros g gr Hgr. destruct (A2 g gr Hgr) as (y&Y1&Y2). destruct (decide (g_parent gr = i)) as [E|Hne].
    + exists x. rewrite E, lookup_insert. split; [done|]. rewrite E in Y1. by rewrite (Hp y Y1).
    + exists y. by rewrite lookup_insert_ne by done.
  - intros r Hr. destruct (A3 r Hr) as (gr&y&G&Y1&Y2). exists gr. destruct (decide (g_parent gr = i)) as [E|Hne].
    + exists x. rewrite E, lookup_insert. split_and!; [done|done|]. rewrite E in Y1. by rewrite (Hp y Y1).
    + exists y. by rewrite lookup_insert_ne by done.
  - intros j y. destruct (decide (j = i)) as [->|Hne]; [done|rewrite lookup_insert_ne by done; apply A4].
  - intros j y g. destruct (decide (j = i)) as [->|Hne]; [rewrite lookup_insert; intros [= <-]; apply Ho|rewrite lookup_insert_ne by done; apply A6].
  - intros p j Hj. destruct (A7 p j Hj) as (y&Y1&Y2). destruct (decide (j = i)) as [->|Hne].
    + exists x. rewrite lookup_insert. by rewrite (Hp y Y1).
    + exists y. by rewrite lookup_insert_ne.
Qed.
Lemma ask_grip s g gr : askinv s → (∃ x, rs_wds s !! g_parent gr = Some x ∧ good_grip (w_path x) (g_filter gr)) → (g < rs_next s)%nat →
  (∀ gr0, rs_grips s !! g = Some gr0 → g_parent gr = g_parent gr0) → askinv (set_grip s g gr).
Proof.
  intros [A1 A2 A3 A4 A5 A6 A7] Hg Hn Hp. split; cbn [rs_wds rs_grips rs_reads rs_next rs_tab set_grip]; try done.
  - intros h k. destruct (decide (h = g)) as [->|Hne]; [rewrite lookup_insert; by intros [= <-]|rewrite lookup_insert_ne by done; apply A2].
  - intros r Hr. destruct (A3 r Hr) as (k&y&G&Y1&Y2). destruct (decide (r_grip r = g)) as [E|Hne].
    + exists gr, y. rewrite E, lookup_insert. rewrite E in G. by rewrite (Hp k G).
    + exists k, y. by rewrite lookup_insert_ne by done.
  - intros h k. destruct (decide (h = g)) as [->|Hne]; [done|rewrite lookup_insert_ne by done; apply A5].
  - intros j y h Hy Hh. destruct (A6 j y h Hy Hh) as (k&K1&K2). destruct (decide (h = g)) as [->|Hne]; [exists gr; rewrite lookup_insert; by rewrite (Hp k K1)|exists k; by rewrite lookup_insert_ne by done].
Qed.
Lemma ask_io s r q : askinv s → (∀ x, x ∈ r → x ∈ rs_reads s) → askinv (set_io s r q).
Proof. intros [A1 A2 A3 A4 A5 A6 A7] H. split; cbn [rs_wds rs_grips rs_reads rs_next rs_tab set_io]; try done. intros x Hx. by apply A3, H. Qed.
Lemma ask_next s n : askinv s → (rs_next s ≤ n)%nat → askinv (set_next s n).
Proof.
  intros [A1 A2 A3 A4 A5 A6 A7] H. split; cbn [rs_wds rs_grips rs_reads rs_next rs_tab set_next]; try done.
  - intros i x Hx. apply A4 in Hx. lia.
  - intros i x Hx. apply A5 in Hx. lia.
Qed.
Lemma ask_read s ok g : askinv s → askinv (readDirChanges s ok g).
Proof.
  intros A. unfold readDirChanges. destruct (rs_grips s !! g) as [gr|] eqn:Hg; [|done]. destruct (g_open gr && ok); [|done].
  destruct A as [A1 A2 A3 A4 A5 A6 A7]. split; cbn [rs_wds rs_grips rs_reads rs_next rs_tab set_io]; try done. intros r [->|Hr]%elem_of_cons; [|by apply A3].
  cbn [r_grip r_filter]. destruct (A2 g gr Hg) as (x&X1&X2). exists gr, x. split_and!; [done|done|]. by apply encode_good.
Qed.
Lemma ask_close_grip s g : askinv s → askinv (close_grip s g).
Proof.
  intros A. unfold close_grip. destruct (rs_grips s !! g) as [gr|] eqn:Hg; [|done]. destruct (g_open gr); [|done].
  apply ask_io; [|intros x Hx; by apply elem_of_list_filter in Hx as [_ Hx]]. apply ask_grip; [done|..].
  - by apply (ai_gr _ A g gr).
  - by apply (ai_gn _ A g gr).
  - intros gr0. rewrite Hg. by intros [= <-].
Qed.
Lemma ask_close s x : askinv s → askinv (closeHandle s x).
Proof. unfold closeHandle. revert s. induction (grips_of x) as [|g l IH]; intros s A; [done|]. cbn [foldl]. by apply IH, ask_close_grip. Qed.
Lemma close_grip_wds s g : rs_wds (close_grip s g) = rs_wds s ∧ rs_tab (close_grip s g) = rs_tab s.
Proof. unfold close_grip. destruct (rs_grips s !! g) as [gr|]; [destruct (g_open gr)|]; done. Qed.
Lemma close_wds s x : rs_wds (closeHandle s x) = rs_wds s ∧ rs_tab (closeHandle s x) = rs_tab s.
Proof.
  unfold closeHandle. revert s. induction (grips_of x) as [|g l IH]; intros s; [done|]. cbn [foldl]. destruct (IH (close_grip s g)) as [-> ->]. apply close_grip_wds.
Qed.
(** The directory a registration works for keeps its path, filter and kind. *)
Definition kept (s s' : rstate) (i : nat) : Prop := rs_tab s' = rs_tab s ∧
  ∀ x, rs_wds s !! i = Some x → ∃ x', rs_wds s' !! i = Some x' ∧ w_path x' = w_path x ∧ w_filter x' = w_filter x ∧ w_rec x' = w_rec x.
Lemma readDir_wds s ok g : rs_wds (readDirChanges s ok g) = rs_wds s ∧ rs_grips (readDirChanges s ok g) = rs_grips s ∧ rs_next (readDirChanges s ok g) = rs_next s ∧ rs_tab (readDirChanges s ok g) = rs_tab s.
Proof. unfold readDirChanges. destruct (rs_grips s !! g) as [gr|]; [destruct (g_open gr && ok)|]; done. Qed.
Lemma grips_with x idx o g : g ∈ grips_of (with_grip x idx o) → o = Some g ∨ g ∈ grips_of x.
Proof.
  unfold grips_of. intros [H|H]%elem_of_app; destruct idx; cbn [with_grip w_g0 w_g1] in H.
  - right. apply elem_of_app. by left.
  - left. destruct o; cbn in H; [|by apply elem_of_nil in H]. by apply elem_of_list_singleton in H as ->.
  - left. destruct o; cbn in H; [|by apply elem_of_nil in H]. by apply elem_of_list_singleton in H as ->.
  - right. apply elem_of_app. by right.
Qed.
Lemma ask_update s ok i x idx reset flag : askinv s → rs_wds s !! i = Some x → (reset = false → good_grip (w_path x) flag) →
  askinv (updateGrip s ok i idx reset flag).1 ∧ kept s (updateGrip s ok i idx reset flag).1 i.
Proof.
  intros A Hx Hf. pose proof (ai_wn _ A i x Hx) as Hi. unfold updateGrip. rewrite Hx.
  assert (∀ y, rs_wds s !! i = Some y → y = x) as Huniq by (intros y; rewrite Hx; by intros [= <-]).
  destruct reset; cbn [fst].
  - split.
    + apply ask_wd; [done| |done|..].
      * destruct idx; exact (ai_wd _ A i x Hx).
      * intros x0 ->%Huniq. by destruct idx.
      * intros g [?|Hg]%grips_with; [done|]. by apply (ai_own _ A i x).
    + split; [done|]. intros y ->%Huniq. eexists. cbn [rs_wds set_wd]. rewrite lookup_insert. split; [done|]. by destruct idx.
  - specialize (Hf eq_refl).
    assert (∀ gg (y : watched), (∃ gr, rs_grips s !! gg = Some gr ∧ g_parent gr = i) ∨ gg = rs_next s →
      w_path y = w_path x → w_filter y = w_filter x → w_rec y = w_rec x → (∀ g, g ∈ grips_of y → g = gg ∨ g ∈ grips_of x) →
      let s0 := set_next s (if decide (gg = rs_next s) then S (rs_next s) else rs_next s) in
      askinv s0 ∧ askinv (set_wd (register s0 gg (Grip false flag (w_rec x) i)) i y)) as Hreg.
    { intros gg y Hgg Hp Hfl Hr Hgy s0. assert (askinv s0) as A0.
      { apply ask_next; [done|]. destruct (decide (gg = rs_next s)); lia. }
      split; [done|]. set (gr0 := Grip true flag (w_rec x) i).
      assert (gg < rs_next s0)%nat as Hlt.
      { unfold s0. cbn [rs_next set_next]. destruct Hgg as [(gr&G&_)| ->]; [apply (ai_gn _ A) in G; destruct (decide (gg = rs_next s)); lia|]. rewrite decide_True by done. lia. }
      assert (askinv (set_grip s0 gg gr0)) as A1.
      { apply ask_grip; [done| |done|].
        - exists x. split; [done|]. exact Hf.
        - intros gr1 Hg1. change (rs_grips s0) with (rs_grips s) in Hg1. destruct Hgg as [(gr&G&Gp)| ->]; [rewrite G in Hg1; injection Hg1 as <-; done|].
          apply (ai_gn _ A) in Hg1. lia. }
      pose proof (readDir_wds (set_grip s0 gg gr0) true gg) as (W1&W2&W3&_).
      apply ask_wd; unfold register; cbn [g_filter g_rec g_parent]; fold gr0.
      - by apply ask_read.
      - rewrite Hp, Hfl. by apply (ai_wd _ A i).
      - rewrite W3. unfold s0. cbn [rs_next set_grip set_next]. destruct (decide (gg = rs_next s)); lia.
      - intros x0. rewrite W1. cbn [rs_wds set_grip set_next s0]. intros ->%Huniq. done.
      - intros g Hg. rewrite W2. cbn [rs_grips set_grip]. destruct (decide (g = gg)) as [->|Hne]; [rewrite lookup_insert; eauto|rewrite lookup_insert_ne by done].
        destruct (Hgy g Hg) as [?|Hg']; [done|]. by apply (ai_own _ A i x). }
    destruct (the_grip x idx) as [g|] eqn:Hg.
    + assert (g ∈ grips_of x) as Hin by (apply grips_the; eauto).
      destruct (ai_own _ A i x g Hx Hin) as (gr&G1&G2).
      assert (askinv (set_grip s g (Grip false flag (w_rec x) i))) as A1.
      { apply ask_grip; [done|eauto|by apply (ai_gn _ A g gr)|]. intros gr0. rewrite G1. by intros [= <-]. }
      destruct ok; cbn [fst].
      * destruct (Hreg g (with_count x (inc8 (w_count x)))) as [_ K]; [left; eauto|done|done|done|by right|].
        assert (g ≠ rs_next s) as Hne by (apply (ai_gn _ A) in G1; lia). rewrite decide_False in K by done.
        assert (∀ t, register (set_grip s g t) g (Grip false flag (w_rec x) i) = register (set_next s (rs_next s)) g (Grip false flag (w_rec x) i)) as E.
        { intros t. unfold register, readDirChanges, set_grip, set_io, set_next. cbn [rs_grips rs_wds rs_reads rs_queue rs_tab rs_next rs_pc rs_sent rs_panic g_filter g_rec g_parent].
          by rewrite !lookup_insert, insert_insert. }
        rewrite E. split; [exact K|]. split; [unfold register; cbn [rs_tab set_wd]; by rewrite (proj2 (proj2 (proj2 (readDir_wds _ _ _))))|]. intros y ->%Huniq. eexists. cbn [rs_wds set_wd]. rewrite lookup_insert. done.
      * split; [by apply ask_close|]. split; [by rewrite (proj2 (close_wds _ _))|]. intros y Hy. rewrite (proj1 (close_wds _ _)). eauto.
    + destruct ok; cbn [fst].
      * destruct (Hreg (rs_next s) (with_count (with_grip x idx (Some (rs_next s))) (inc8 (w_count (with_grip x idx (Some (rs_next s))))))) as [_ K].
        { by right. } { by destruct idx. } { by destruct idx. } { by destruct idx. }
        { intros h Hh. change (grips_of (with_count (with_grip x idx (Some (rs_next s))) (inc8 (w_count (with_grip x idx (Some (rs_next s))))))) with (grips_of (with_grip x idx (Some (rs_next s)))) in Hh.
          apply grips_with in Hh as [[= ->]|Hh]; [by left|by right]. }
        rewrite decide_True in K by done.
        assert (w_rec (with_grip x idx (Some (rs_next s))) = w_rec x) as -> by (by destruct idx).
        split; [exact K|]. split; [unfold register; cbn [rs_tab set_wd]; by rewrite (proj2 (proj2 (proj2 (readDir_wds _ _ _))))|]. intros y ->%Huniq. eexists. cbn [rs_wds set_wd]. rewrite lookup_insert. split; [done|]. by destruct idx.
      * split; [by apply ask_close|]. split; [by rewrite (proj2 (close_wds _ _))|]. intros y Hy. rewrite (proj1 (close_wds _ _)). eauto.
Qed.
Lemma ask_recreate s ok0 ok1 i x : askinv s → rs_wds s !! i = Some x →
  askinv (recreate s ok0 ok1 i).1 ∧ rs_tab (recreate s ok0 ok1 i).1 = rs_tab s ∧ ∃ x', rs_wds (recreate s ok0 ok1 i).1 !! i = Some x' ∧ w_path x' = w_path x.
Proof.
  intros A Hx. unfold recreate. rewrite Hx. destruct (ai_wd _ A i x Hx) as (e&st&F&Hst&He&Ha). rewrite F.
  destruct (ask_update s ok0 i x false ((e .| st) .&^ DN =? 0) ((e .| st) .&^ DN) A Hx) as [A1 K1].
  { intros _. exists e, st. split_and!; try done. by left. }
  destruct (updateGrip s ok0 i false ((e .| st) .&^ DN =? 0) ((e .| st) .&^ DN)) as [s1 b1]. cbn [fst] in *. destruct K1 as [T1 K1]. destruct (K1 x Hx) as (x1&X1&P1&F1&R1).
  destruct b1; cbn [negb]; [|cbn [fst]; eauto].
  destruct (ask_update s1 ok1 i x1 true ((e .| st) .& dset =? 0) (e .| st .| dirmarker) A1 X1) as [A2 K2].
  { intros Hd. rewrite P1. exists e, st. split_and!; try done. right. split; [done|]. rewrite (mach_dset e st dset Hst) in Hd by (by vm_compute). by apply N.eqb_neq. }
  destruct (updateGrip s1 ok1 i true ((e .| st) .& dset =? 0) (e .| st .| dirmarker)) as [s2 b2]. cbn [fst] in *. destruct K2 as [T2 K2]. destruct (K2 x1 X1) as (x2&X2&P2&F2&R2).
  destruct b2; cbn [negb].
  2: { cbn [fst]. split_and!; [done|congruence|]. exists x2. split; [done|]. congruence. }
  rewrite X2. cbn [fst]. split_and!; [|cbn [rs_tab set_wd]; congruence|cbn [rs_wds set_wd]; rewrite lookup_insert; eexists; split; [done|]; cbn [w_path with_filter]; congruence].
  apply ask_wd; [done| |by apply (ai_wn _ A2 i x2)| |].
  - cbn [w_path w_filter with_filter]. rewrite P2, P1, F2, F1, F. exists e, 0. rewrite N.lor_0_r, (mach_clear e st He Hst). split_and!; try done.
  - intros x0. rewrite X2. by intros [= <-].
  - intros g Hg. by apply (ai_own _ A2 i x2).
Qed.
End ask.
Lemma asked_more tr l p e : asked tr p e → asked (tr ++ [l]) p e.
Proof. intros (a&c&r&k&[H|[old H]]); exists a, c, r, k; [left|right; exists old]; apply elem_of_app; by left. Qed.
Lemma askinv_more tr l s : askinv tr s → askinv (tr ++ [l]) s.
Proof.
  intros [A1 A2 A3 A4 A5 A6 A7]. split; try done.
  - intros i x Hx. destruct (A1 i x Hx) as (e&st&?&?&?&?). exists e, st. split_and!; try done. by apply asked_more.
  - intros g gr Hg. destruct (A2 g gr Hg) as (x&X&(e&st&?&?&?&?)). exists x. split; [done|]. exists e, st. split_and!; try done. by apply asked_more.
  - intros r Hr. destruct (A3 r Hr) as (gr&x&G&X&(e&?&?&?)). exists gr, x. split_and!; try done. exists e. split_and!; try done. by apply asked_more.
Qed.
Lemma askinv_io tr s s' : askinv tr s → rs_wds s' = rs_wds s → rs_grips s' = rs_grips s → rs_next s' = rs_next s → (∀ r, r ∈ rs_reads s' → r ∈ rs_reads s) →
  (∀ p i, rs_tab s' !! p = Some i → rs_tab s !! p = Some i ∨ ∃ x, rs_wds s !! i = Some x ∧ w_path x = p) → askinv tr s'.
Proof.
  intros [A1 A2 A3 A4 A5 A6 A7] E1 E2 E3 E4 E5. split; rewrite ?E1, ?E2, ?E3; try done.
  - intros r Hr. by apply A3, E4.
  - intros p i [H|H]%E5; [by apply A7|done].
Qed.
Lemma good_clear tr p f m : good_set tr p f → incl_ev m onlyMachineStates → good_set tr p (f .&^ m).
Proof.
  intros (e&st&->&Hst&He&Ha) Hm. exists e, (st .&^ m). split_and!; try done.
  - pose proof (req_disj e onlyMachineStates He ltac:(by vm_compute)) as K. apply has_ext. intros i. rewrite has_lor, !has_ldiff, has_lor.
    specialize (K i). specialize (Hm i). destruct (has_dec m i); tauto.
  - intros i [Hi _]%has_ldiff. auto.
Qed.
Lemma good_set_more tr p f m : good_set tr p f → incl_ev m onlyMachineStates → good_set tr p (f .| m).
Proof.
  intros (e&st&->&Hst&He&Ha) Hm. exists e, (st .| m). split_and!; try done; [by rewrite N.lor_assoc|].
  intros i [Hi|Hi]%has_lor; auto.
Qed.
Lemma rdstep_ask tr s l s' : askinv tr s → rdstep s l s' → askinv (tr ++ [l]) s'.
Proof.
  intros IH Hs. pose proof (askinv_more tr l s IH) as A.
  assert (incl_ev stateUnwatch onlyMachineStates) as Hu2 by (apply land_eq_incl; by vm_compute).
  assert (incl_ev stateRewatch onlyMachineStates) as Hr2 by (apply land_eq_incl; by vm_compute).
  destruct Hs as [q ok0 ok1 s' r Hq|g l l1 x l2 Hr Hg|g l l1 l2 gr wd Hpc Hq Hg Hw|g ok Hpc|g ok0 ok1 Hpc].
  - destruct q as [p e k|p old new k|p]; cbn [rd_request] in Hq.
    + set (L := LReq (QWatch p e k) ok0 ok1 r) in *. unfold rd_watch in Hq. destruct (nonzero (e .&^ known_events)) eqn:Hn; [by injection Hq as <- <-|].
      apply negb_false_iff, N.eqb_eq, known_requestable in Hn.
      destruct (rs_tab s !! p) as [i|] eqn:Ht.
      * destruct (rs_wds s !! i) as [x|] eqn:Hx; apply pair_equal_spec in Hq as [<- <-]; [|done]. apply ask_wd; [done| |by apply (ai_wn _ _ A i x)| |].
        -- cbn [w_path w_filter with_filter]. exact (good_clear _ _ _ _ (ai_wd _ _ A i x Hx) Hu2).
        -- intros x0. rewrite Hx. by intros [= <-].
        -- intros g Hg. by apply (ai_own _ _ A i x).
      * assert (askinv (tr ++ [L]) (set_wd (set_next s (S (rs_next s))) (rs_next s) (Wd e k 0 p None None))) as A1.
        { apply ask_wd.
          - apply ask_next; [done|]. lia.
          - cbn [w_path w_filter]. exists e, 0. split_and!; [by rewrite N.lor_0_r|intros i Hi; by apply has_0 in Hi|done|].
            exists ok0, ok1, r, k. left. apply elem_of_app. right. by left.
          - cbn [rs_next set_next]. lia.
          - cbn [rs_wds set_next]. intros x0 Hx0. apply (ai_wn _ _ A) in Hx0. lia.
          - intros g Hg. by apply elem_of_nil in Hg. }
        destruct (ask_recreate _ _ ok0 ok1 (rs_next s) _ A1 (lookup_insert _ _ _)) as (A2&T2&x2&X2&P2).
        destruct (recreate _ ok0 ok1 (rs_next s)) as [s2 b2]. cbn [fst] in *. destruct b2; apply pair_equal_spec in Hq as [<- <-]; [|done].
        eapply askinv_io; [exact A2|try done..]. intros q i. cbn [rs_tab set_tab]. destruct (decide (q = p)) as [->|Hne].
        -- rewrite lookup_insert. intros [= <-]. right. eauto.
        -- rewrite lookup_insert_ne by done. rewrite T2. intros H. left. done.
    + set (L := LReq (QRewatch p old new k) ok0 ok1 r) in *. unfold rd_rewatch in Hq. destruct (nonzero (new .&^ known_events)) eqn:Hn; [by injection Hq as <- <-|].
      apply negb_false_iff, N.eqb_eq, known_requestable in Hn.
      destruct (nonState s p) as [[i x]|] eqn:Hns; [|by injection Hq as <- <-].
      unfold nonState in Hns. destruct (rs_tab s !! p) as [j|] eqn:Ht; [|done]. destruct (rs_wds s !! j) as [y|] eqn:Hy; [|done].
      destruct (nonzero (w_filter y .& onlyMachineStates)) eqn:Hf; [done|]. injection Hns as <- <-.
      destruct (nonzero (N.lxor _ old)) eqn:Hxor; [apply pair_equal_spec in Hq as [<- <-]; eapply askinv_io; [exact A|try done..]; by left|].
      apply negb_false_iff, N.eqb_eq in Hxor. apply N.lxor_eq in Hxor. apply negb_false_iff, N.eqb_eq in Hf.
      destruct (ai_wd _ _ A j y Hy) as (e&st&F&Hst&He'&Ha).
      destruct ok0; apply pair_equal_spec in Hq as [<- <-]; apply ask_close, ask_wd; try done.
      * cbn [w_path w_filter]. destruct (ai_tab _ _ A p j Ht) as (y'&Y1&Y2). rewrite Hy in Y1. injection Y1 as <-. exists new, stateRewatch.
        split_and!; [by rewrite N.lor_comm|done|done|]. exists true, ok1, true, k. right. exists old. rewrite Y2. apply elem_of_app. right. by left.
      * by apply (ai_wn _ _ A j y).
      * intros x0. rewrite Hy. by intros [= <-].
      * intros g Hg. by apply (ai_own _ _ A j y).
      * cbn [w_path w_filter with_filter]. exists e, 0. rewrite N.lor_0_r. split_and!; try done.
        rewrite <-Hxor, F, mach_dset; [|done|by vm_compute]. apply has_ext. intros i. rewrite has_land. split; [tauto|]. intros Hi. split; [done|].
        assert (incl_ev known_events (onlyNotifyChanges .| onlyNGlobalEvents)) as K by (apply land_eq_incl; by vm_compute). by apply K, (requestable_incl e).
      * by apply (ai_wn _ _ A j y).
      * intros x0. rewrite Hy. by intros [= <-].
      * intros g Hg. by apply (ai_own _ _ A j y).
    + unfold rd_unwatch in Hq. destruct (nonState s p) as [[i x]|] eqn:Hns; [|by injection Hq as <- <-].
      unfold nonState in Hns. destruct (rs_tab s !! p) as [j|] eqn:Ht; [|done]. destruct (rs_wds s !! j) as [y|] eqn:Hy; [|done].
      destruct (nonzero (w_filter y .& onlyMachineStates)) eqn:Hf; [done|]. injection Hns as <- <-.
      assert (askinv (tr ++ [LReq (QUnwatch p) ok0 ok1 r]) (set_wd s j (with_filter y (w_filter y .| stateUnwatch)))) as A1.
      { apply ask_wd; [done| |by apply (ai_wn _ _ A j y)| |].
        - cbn [w_path w_filter with_filter]. exact (good_set_more _ _ _ _ (ai_wd _ _ A j y Hy) Hu2).
        - intros x0. rewrite Hy. by intros [= <-].
        - intros g Hg. by apply (ai_own _ _ A j y). }
      destruct ok0; [by apply pair_equal_spec in Hq as [<- <-]|]. destruct ok1; apply pair_equal_spec in Hq as [<- <-]; [|done].
      apply ask_io; [exact A1|done].
  - eapply ask_io; [exact A|]. intros y. rewrite Hr, !elem_of_app, elem_of_cons. tauto.
  - eapply askinv_io; [exact A|try done..]. by left.
  - eapply askinv_io; [apply (ask_read _ s ok g), A|try done..]. by left.
  - assert (askinv (tr ++ [LState g ok0 ok1]) (set_pc s PWait)) as A0 by (eapply askinv_io; [exact A|try done..]; by left).
    unfold loopstate. change (rs_grips (set_pc s PWait)) with (rs_grips s). destruct (rs_grips s !! g) as [gr|] eqn:Hg; [|done].
    change (rs_wds (set_pc s PWait)) with (rs_wds s). destruct (rs_wds s !! g_parent gr) as [x|] eqn:Hx; [|done].
    destruct (_ =? 0); [done|].
    assert (askinv (tr ++ [LState g ok0 ok1]) (set_wd (set_pc s PWait) (g_parent gr) (with_count x (dec8 (w_count x))))) as A1.
    { apply ask_wd; [done|exact (ai_wd _ _ A0 (g_parent gr) x Hx)|by apply (ai_wn _ _ A0 (g_parent gr) x)| |].
      - change (rs_wds (set_pc s PWait)) with (rs_wds s). intros x0. rewrite Hx. by intros [= <-].
      - intros h Hh. by apply (ai_own _ _ A0 (g_parent gr) x). }
    destruct (_ =? 0); [|done]. destruct (_ =? stateRewatch).
    { eapply ask_recreate; [exact A1|cbn [rs_wds set_wd]; apply lookup_insert]. }
    destruct (_ =? stateUnwatch); [|destruct (_ =? stateCPClose); [done|eapply askinv_io; [exact A1|try done..]; by left]].
    eapply askinv_io; [eapply ask_close, A1|try done..]. intros q i. cbn [rs_tab set_tab]. intros [_ H]%lookup_delete_Some. by left.
Qed.
Lemma askinv_init : askinv [] rs_init.
Proof. split; try done. intros ? H. by apply elem_of_nil in H. Qed.
Lemma rdexec_ask tr s : rdexec tr s → askinv tr s.
Proof. induction 1 as [|tr s l s' He IH Hp Hs]; [apply askinv_init|by eapply rdstep_ask]. Qed.

(** ** In orderly executions only open handles are read *)
Definition reads_open (s : rstate) : Prop := ∀ r, r ∈ rs_reads s → closed s (r_grip r) = false.
Lemma reads_open_same s s' : reads_open s → rs_grips s' = rs_grips s → (∀ r, r ∈ rs_reads s' → r ∈ rs_reads s) → reads_open s'.
Proof. intros H E1 E2 r Hr. unfold closed. rewrite E1. by apply H, E2. Qed.
Lemma reads_open_close_grip s g : reads_open s → reads_open (close_grip s g).
Proof.
  intros H. unfold close_grip. destruct (rs_grips s !! g) as [gr|]; [|done]. destruct (g_open gr); [|done].
  intros r Hr. unfold set_io, set_grip in *. cbn [rs_reads] in Hr. apply elem_of_list_filter in Hr as [Hne Hr]. unfold closed. cbn [rs_grips].
  rewrite lookup_insert_ne by done. by apply H.
Qed.
Lemma reads_open_close s x : reads_open s → reads_open (closeHandle s x).
Proof. unfold closeHandle. revert s. induction (grips_of x) as [|g l IH]; intros s A; [done|]. cbn [foldl]. by apply IH, reads_open_close_grip. Qed.
Lemma reads_open_update s i idx reset flag : reads_open s → reads_open (updateGrip s true i idx reset flag).1.
Proof.
  intros H. destruct (rs_wds s !! i) as [x|] eqn:Hx; [|unfold updateGrip; by rewrite Hx].
  destruct reset; [unfold updateGrip; rewrite Hx; cbn [fst]; by eapply reads_open_same|].
  rewrite (updateGrip_spec s i x idx flag Hx). cbn [fst]. intros r Hr. unfold regs_state in Hr. cbn [rs_reads] in Hr. unfold closed. cbn [rs_grips regs_state].
  destruct (decide (r_grip r = default (rs_next s) (the_grip x idx))) as [->|Hne]; [by rewrite lookup_insert|]. rewrite lookup_insert_ne by done.
  apply elem_of_cons in Hr as [->|Hr]; [by destruct Hne|]. by apply H.
Qed.
Lemma reads_open_recreate s i : reads_open s → reads_open (recreate s true true i).1.
Proof.
  intros H. unfold recreate. destruct (rs_wds s !! i) as [x|]; [|done].
  pose proof (reads_open_update s i false (w_filter x .&^ DN =? 0) (w_filter x .&^ DN) H) as H1. destruct (updateGrip s true i false _ _) as [s1 b1]. cbn [fst] in H1.
  destruct b1; cbn [negb]; [|done].
  pose proof (reads_open_update s1 i true (w_filter x .& dset =? 0) (w_filter x .| dirmarker) H1) as H2. destruct (updateGrip s1 true i true _ _) as [s2 b2]. cbn [fst] in H2.
  destruct b2; cbn [negb]; [|done]. destruct (rs_wds s2 !! i); [|done]. by eapply reads_open_same.
Qed.
Lemma rdorderly_open tr s : rdorderly tr s → reads_open s.
Proof.
  induction 1 as [|tr s l s' Ho IH Hl Hs]; [intros r Hr; by apply elem_of_nil in Hr|].
  destruct Hs as [q ok0 ok1 s' r Hq|g l l1 x l2 Hr Hg|g l l1 l2 gr wd Hpc Hq Hg Hw|g ok Hpc|g ok0 ok1 Hpc]; cbn [orderly_label] in Hl.
  - destruct Hl as [_ Hl]. destruct q as [p e k|p old new k|p]; cbn [rd_request] in Hq.
    + destruct Hl as (->&->&_). unfold rd_watch in Hq. destruct (nonzero _); [by injection Hq as <- <-|]. destruct (rs_tab s !! p) as [i|].
      { destruct (rs_wds s !! i); apply pair_equal_spec in Hq as [<- <-]; by eapply reads_open_same. }
      pose proof (reads_open_recreate (set_wd (set_next s (S (rs_next s))) (rs_next s) (Wd e k 0 p None None)) (rs_next s)) as H.
      destruct (recreate _ true true (rs_next s)) as [s2 b2]. cbn [fst] in H.
      destruct b2; apply pair_equal_spec in Hq as [<- <-]; [eapply reads_open_same; [|done..]|]; apply H; by eapply reads_open_same.
    + destruct Hl as (->&_). unfold rd_rewatch in Hq. destruct (nonzero _); [by injection Hq as <- <-|]. destruct (nonState s p) as [[i x]|]; [|by injection Hq as <- <-].
      destruct (nonzero _); apply pair_equal_spec in Hq as [<- <-]; [by eapply reads_open_same|]. apply reads_open_close. by eapply reads_open_same.
    + unfold rd_unwatch in Hq. destruct (nonState s p) as [[i x]|]; [|by injection Hq as <- <-].
      destruct ok0; [|destruct ok1]; apply pair_equal_spec in Hq as [<- <-]; by eapply reads_open_same.
  - eapply reads_open_same; [exact IH|done|]. intros y. cbn [rs_reads set_io]. rewrite Hr, !elem_of_app, elem_of_cons. tauto.
  - by eapply reads_open_same.
  - eapply (reads_open_same (readDirChanges s ok g)); [|done..]. unfold readDirChanges. destruct (rs_grips s !! g) as [gr|] eqn:Hg; [|done].
    destruct (g_open gr) eqn:Ho'; cbn [andb]; [|done]. destruct ok; [|done]. intros r. cbn [rs_reads set_io]. intros [->|Hr]%elem_of_cons; [|by apply IH].
    unfold closed. cbn [rs_grips set_io r_grip]. by rewrite Hg, Ho'.
  - destruct Hl as [-> ->]. assert (reads_open (set_pc s PWait)) as H0 by (by eapply reads_open_same).
    unfold loopstate. destruct (rs_grips (set_pc s PWait) !! g) as [gr|]; [|done]. destruct (rs_wds (set_pc s PWait) !! g_parent gr) as [x|]; [|done].
    destruct (_ =? 0); [done|].
    assert (reads_open (set_wd (set_pc s PWait) (g_parent gr) (with_count x (dec8 (w_count x))))) as H1 by (by eapply reads_open_same).
    destruct (_ =? 0); [|done]. destruct (_ =? stateRewatch); [by apply reads_open_recreate|].
    destruct (_ =? stateUnwatch); [|destruct (_ =? stateCPClose); [done|by eapply reads_open_same]].
    exact (reads_open_same _ _ (reads_open_close _ (with_count x (dec8 (w_count x))) H1) eq_refl (λ r Hr, Hr)).
Qed.

(** ** Running the watcher *)
Global Instance fninfo_eq_dec : EqDecision fninfo.
Proof. solve_decision. Defined.
Definition rdnext (s : rstate) (l : rlabel) : option rstate :=
  match l with
  | LReq q ok0 ok1 r => let x := rd_request s q ok0 ok1 in if Bool.eqb r x.2 then Some x.1 else None
  | LData g l =>
      match list_find (λ r, r_grip r = g) (rs_reads s) with
      | Some (i, x) => Some (set_io s (take i (rs_reads s) ++ drop (S i) (rs_reads s)) ((g, l) :: rs_queue s))
      | None => None
      end
  | LTake g l =>
      match rs_pc s, list_find (λ x, x = (g, l)) (rs_queue s), rs_grips s !! g with
      | PWait, Some (i, _), Some gr =>
          match rs_wds s !! g_parent gr with
          | Some wd => Some (set_pc (set_sent (set_io s (rs_reads s) (take i (rs_queue s) ++ drop (S i) (rs_queue s))) (rs_sent s ++ loopevent (w_path wd) (g_filter gr) l)) (PRead g))
          | None => None
          end
      | _, _, _ => None
      end
  | LRead g ok => match rs_pc s with PRead h => if decide (h = g) then Some (set_pc (readDirChanges s ok g) (PState g)) else None | _ => None end
  | LState g ok0 ok1 => match rs_pc s with PState h => if decide (h = g) then Some (loopstate (set_pc s PWait) ok0 ok1 g) else None | _ => None end
  end.
Lemma rdnext_step s l s' : rdnext s l = Some s' → rdstep s l s'.
Proof.
  destruct l as [q ok0 ok1 r|g l|g l|g ok|g ok0 ok1]; cbn [rdnext].
  - destruct (Bool.eqb r (rd_request s q ok0 ok1).2) eqn:E; [|done]. apply Bool.eqb_prop in E as ->. intros [= <-]. constructor. by destruct (rd_request s q ok0 ok1).
  - destruct (list_find _ _) as [[i x]|] eqn:E; [|done]. intros [= <-]. apply list_find_Some in E as (E1&E2&_). eapply RdData; [|done].
    symmetry. by apply take_drop_middle.
  - destruct (rs_pc s) eqn:Hpc; try done. destruct (list_find _ _) as [[i x]|] eqn:E; [|done]. apply list_find_Some in E as (E1&->&_).
    destruct (rs_grips s !! g) as [gr|] eqn:Hg; [|done]. destruct (rs_wds s !! g_parent gr) as [wd|] eqn:Hw; [|done]. intros [= <-].
    eapply RdTake; try done. symmetry. by apply take_drop_middle.
  - destruct (rs_pc s) eqn:Hpc; try done. destruct (decide (g0 = g)) as [->|]; [|done]. intros [= <-]. by constructor.
  - destruct (rs_pc s) eqn:Hpc; try done. destruct (decide (g0 = g)) as [->|]; [|done]. intros [= <-]. by constructor.
Qed.
Definition orderlyb (tr : list rlabel) (s : rstate) (l : rlabel) : bool :=
  match l with
  | LReq q ok0 ok1 _ =>
      match rs_pc s with
      | PState g => match rs_grips s !! g with Some gr => match rs_wds s !! g_parent gr with Some wd => bool_decide (w_path wd ≠ req_path q) | None => true end | None => true end
      | _ => true
      end &&
      match q with
      | QWatch p e r => ok0 && ok1 && (e .&^ known_events =? 0) && nonzero e && match rs_tab s !! p with Some _ => false | None => true end
      | QRewatch p old new r => ok0 && (new .&^ known_events =? 0) && nonzero (new .&^ DN) && match want tr p with Some (e, _) => old =? e | None => true end
      | QUnwatch p => ok1
      end
  | LRead _ ok => ok
  | LState _ ok0 ok1 => ok0 && ok1
  | LData _ _ | LTake _ _ => true
  end.
Lemma orderlyb_label tr s l : orderlyb tr s l = true → orderly_label tr s l.
Proof.
  destruct l as [q ok0 ok1 r|g l|g l|g ok|g ok0 ok1]; cbn [orderlyb orderly_label]; try done; [|by intros [-> ->]%andb_prop].
  intros [H1 H2]%andb_prop. split.
  - intros g gr wd Hpc Hg Hw. rewrite Hpc, Hg, Hw in H1. by apply bool_decide_eq_true in H1.
  - destruct q as [p e k|p old new k|p]; [..|done].
    + apply andb_prop in H2 as [[[[-> ->]%andb_prop H3]%andb_prop H4]%andb_prop H5]. apply N.eqb_eq, known_requestable in H3. apply negb_true_iff, N.eqb_neq in H4.
      split_and!; try done. by destruct (rs_tab s !! p).
    + apply andb_prop in H2 as [[[-> H3]%andb_prop H4]%andb_prop H5]. apply N.eqb_eq, known_requestable in H3. apply negb_true_iff, N.eqb_neq in H4.
      split_and!; try done. intros e k' E. rewrite E in H5. by apply N.eqb_eq.
Qed.
Fixpoint rdrun (chk : bool) (pre : list rlabel) (s : rstate) (tr : list rlabel) : option rstate :=
  match tr with
  | [] => Some s
  | l :: tr => if rs_panic s || (chk && negb (orderlyb pre s l)) then None else match rdnext s l with Some s' => rdrun chk (pre ++ [l]) s' tr | None => None end
  end.
Lemma rdrun_orderly tr : ∀ pre s s', rdorderly pre s → rdrun true pre s tr = Some s' → rdorderly (pre ++ tr) s'.
Proof.
  induction tr as [|l tr IH]; intros pre s s' H; cbn [rdrun]; [intros [= <-]; by rewrite app_nil_r|].
  destruct (rs_panic s || (true && negb (orderlyb pre s l))) eqn:E; [done|]. apply orb_false_iff in E as [_ E]. cbn [andb] in E. apply negb_false_iff in E.
  destruct (rdnext s l) as [s1|] eqn:Hn; [|done]. intros K. apply (IH (pre ++ [l])) in K; [by rewrite <-app_assoc in K|].
  econstructor; [done|by apply orderlyb_label|by apply rdnext_step].
Qed.
Lemma rdrun_exec tr c : ∀ pre s s', rdexec pre s → rdrun c pre s tr = Some s' → rdexec (pre ++ tr) s'.
Proof.
  induction tr as [|l tr IH]; intros pre s s' H; cbn [rdrun]; [intros [= <-]; by rewrite app_nil_r|].
  destruct (rs_panic s || (c && negb (orderlyb pre s l))) eqn:E; [done|]. apply orb_false_iff in E as [E _].
  destruct (rdnext s l) as [s1|] eqn:Hn; [|done]. intros K. apply (IH (pre ++ [l])) in K; [by rewrite <-app_assoc in K|].
  econstructor; [done|done|by apply rdnext_step].
Qed.
Lemma orderly_exec tr s : rdorderly tr s → rdexec tr s.
Proof.
  induction 1 as [|tr s l s' Ho IH Hl Hs]; [constructor|]. econstructor; [exact IH|apply (ri_panic _ _ (rdorderly_inv _ _ Ho))|done].
Qed.
Definition rdfinal (c : bool) (tr : list rlabel) : rstate := default rs_init (rdrun c [] rs_init tr).
Definition rdruns (c : bool) (tr : list rlabel) : bool := match rdrun c [] rs_init tr with Some _ => true | None => false end.
Lemma rdfinal_orderly tr : rdruns true tr = true → rdorderly tr (rdfinal true tr).
Proof.
  unfold rdruns, rdfinal. destruct (rdrun true [] rs_init tr) as [s|] eqn:E; [|done]. intros _. apply (rdrun_orderly tr [] rs_init s); [constructor|done].
Qed.
Lemma rdfinal_exec c tr : rdruns c tr = true → rdexec tr (rdfinal c tr).
Proof.
  unfold rdruns, rdfinal. destruct (rdrun c [] rs_init tr) as [s|] eqn:E; [|done]. intros _. apply (rdrun_exec tr c [] rs_init s); [constructor|done].
Qed.
