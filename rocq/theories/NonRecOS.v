(** * NonRecOS: the OS watches of the non-recursive tree *)
From Verif Require Import Base Event Watchpoint WatchpointFacts Paths PathsFacts Loop LoopFacts
  Node NodeFacts SpecTree WalkFacts RootFacts NonRec NonRecWp SpecNonRec SpecNonRecOS SpecOS NonRecFacts NonRecOps NonRecReg NonRecStep.
Local Open Scope N_scope.

Section os.
Context (P : platform) (HP : platform_ok P) (sepc : ascii).
Notation render := (render sepc).
Notation nenv := (nenv P sepc).
Notation wp_ok := (wp_ok P).
Notation tinv := (tinv P sepc).
Notation recx := (recx P).
Notation nop_ok := (nop_ok P sepc).
Notation nstep := (nstep sepc).

Definition opt_ev (x : N) : option (N * bool) := if x =? 0 then None else Some (x, false).
Lemma opt_ev_0 : opt_ev 0 = None. Proof. done. Qed.
Lemma opt_ev_nz x : x ≠ 0 → opt_ev x = Some (x, false).
Proof. intros H. unfold opt_ev. by rewrite (proj2 (N.eqb_neq _ _) H). Qed.

Definition nz_wp (wp : watchpoint) : Prop := ∀ k e, k ≠ KNil → wp !! k = Some e → vis P e ≠ 0.
Definition strict (t : tree) : Prop :=
  ∀ p, is_Some (t !! p) → [] ∉ removelast p ∧ name_at t p = render p.

Record osi (s : st) : Prop := {
  oi_strict : strict (st_tree s);
  oi_nz : ∀ p, nz_wp (wp_at (st_tree s) p);
  oi_tab : ∀ p, comps_ok sepc p → os_watches (st_log s) !! render p = opt_ev (total P (wp_at (st_tree s) p));
  oi_only : ∀ nm x, os_watches (st_log s) !! nm = Some x → ∃ p, comps_ok sepc p ∧ nm = render p;
  oi_legal : log_legal P (st_log s);
}.

Lemma os_watches_snoc log x : os_watches (log ++ [x]) = os_step (os_watches log) x.
Proof. unfold os_watches. by rewrite foldl_app. Qed.
Lemma os_step_false m c : os_step m (c, false) = m.
Proof. by destruct c. Qed.
Lemma log_legal_nil : log_legal P [].
Proof. intros [|? ?] c ok l2 H; discriminate. Qed.
Lemma log_legal_snoc log c ok : log_legal P log → legal P (os_watches log) c → log_legal P (log ++ [(c, ok)]).
Proof.
  intros H1 H2 l1 c' ok' l2 Heq. apply app_split_last in Heq as [(->&->&[= <- <-])|(b'&->&->)]; [done|].
  by eapply H1.
Qed.
Lemma total_no_internal wp : disj_ev (total P wp) (internal P).
Proof. unfold total. clear. bits. Qed.

Lemma nz_total wp : wp_ok wp → nz_wp wp → wp ≠ ∅ → total P wp ≠ 0.
Proof.
  intros Hok Hnz Hne Hz.
  assert (∃ k e, k ≠ KNil ∧ wp !! k = Some e) as (k&e&Hk&He).
  { apply map_choose in Hne as (k&e&He). destruct (decide (k = KNil)) as [->|]; [|eauto].
    pose proof (wo_agg _ _ Hok) as Ha. unfold agg_ok in Ha. rewrite He in Ha. case_bool_decide as Hd; [done|].
    apply map_choose in Hd as (k&e'&[? ?]%lookup_delete_Some). exists k, e'. naive_solver. }
  apply (Hnz k e Hk He). apply zero_bits. intros i. destruct (N.testbit (vis P e) i) eqn:Eb; [|done].
  assert (has (total P wp) i) as Hi.
  { unfold total. assert (has (vis P e) i) as Hv by done. unfold vis in Hv. apply has_ldiff in Hv as [H1 H2].
    apply has_ldiff. split; [|done]. apply has_others. by exists k, e. }
  rewrite Hz in Hi. by apply has_0 in Hi.
Qed.
Lemma total_empty : total P ∅ = 0.
Proof. unfold total, others. by rewrite delete_empty, joinall_empty. Qed.

Lemma strict_set_wp t h wp : strict t → strict (set_wp t h wp).
Proof. intros H p. rewrite set_wp_is_Some, name_at_set_wp. apply H. Qed.

(** Updating one node together with the OS. *)
Lemma osi_upd E s h wp' d :
  tinv (st_tree s) → osi s → is_Some (st_tree s !! h) → nz_wp wp' →
  diff_exact (total P (wp_at (st_tree s) h)) (total P wp') d →
  (∀ c, call_for (render h) d = Some c → e_W E (st_log s) c = true) →
  osi (upd E s h wp' d).
Proof.
  intros Ht [Hst Hnz Htab Honly Hleg] Hh Hnz' Hd HW.
  assert (comps_ok sepc h) as Hch by (by eapply ti_comps).
  assert (name_at (st_tree s) h = render h) as Hnm by (by apply Hst).
  assert (∀ p, wp_at (set_wp (st_tree s) h wp') p = if decide (p = h) then wp' else wp_at (st_tree s) p) as Hwp.
  { intros p. rewrite wp_at_set_wp. destruct (decide (p = h)) as [->|Hne].
    - by rewrite decide_True.
    - by rewrite decide_False by naive_solver. }
  assert (∀ p, nz_wp (wp_at (set_wp (st_tree s) h wp') p)) as Hnz2.
  { intros p. rewrite Hwp. destruct (decide (p = h)); [done|apply Hnz]. }
  unfold upd. cbn [st_tree with_tree]. rewrite name_at_set_wp, Hnm.
  destruct Hd as [[Heq ->]|[Hne ->]].
  - (* no change *)
    change (call_for (render h) none) with (@None wcall). split; cbn [st_tree with_tree st_log].
    + by apply strict_set_wp.
    + done.
    + intros p Hp. rewrite Hwp. destruct (decide (p = h)) as [->|]; [|by apply Htab].
      rewrite <-Heq. by apply Htab.
    + done.
    + done.
  - set (D0 := total P (wp_at (st_tree s) h)) in *. set (D1 := total P wp') in *.
    assert (∃ c, call_for (render h) (D0, D1) = Some c ∧ legal P (os_watches (st_log s)) c ∧
      os_step (os_watches (st_log s)) (c, true) !! render h = opt_ev D1 ∧
      ∀ nm, nm ≠ render h → os_step (os_watches (st_log s)) (c, true) !! nm = os_watches (st_log s) !! nm) as (c&Hc&Hl&Hs1&Hs2).
    { unfold call_for, is_none. cbn [fst snd]. pose proof (Htab h Hch) as Hth. fold D0 in Hth.
      assert ((D0 =? 0) && (D1 =? 0) = false) as ->.
      { apply andb_false_iff. destruct (N.eqb_spec D0 0); [right|by left]. apply N.eqb_neq. congruence. }
      destruct (N.eqb_spec D1 0) as [Hz|Hz].
      { eexists. split; [done|]. rewrite opt_ev_nz in Hth by congruence. split_and!.
        - simpl. by rewrite Hth.
        - simpl. rewrite lookup_delete, Hz. done.
        - intros nm Hnm'. simpl. by rewrite lookup_delete_ne. }
      destruct (N.eqb_spec D0 0) as [Hz0|Hz0].
      { eexists. split; [done|]. rewrite Hz0 in Hth. split_and!.
        - simpl. split; [done|]. split; [done|apply total_no_internal].
        - simpl. by rewrite lookup_insert, opt_ev_nz.
        - intros nm Hnm'. simpl. by rewrite lookup_insert_ne. }
      eexists. split; [done|]. rewrite opt_ev_nz in Hth by done. split_and!.
      - simpl. rewrite Hth. split_and!; [done|done|done|apply total_no_internal].
      - simpl. by rewrite lookup_insert, opt_ev_nz.
      - intros nm Hnm'. simpl. by rewrite lookup_insert_ne. }
    rewrite Hc. unfold wcallf. cbn [st_log with_tree fst]. rewrite (HW c Hc).
    split; cbn [st_tree with_tree st_log].
    + by apply strict_set_wp.
    + done.
    + intros p Hp. rewrite os_watches_snoc, Hwp. destruct (decide (p = h)) as [->|Hph]; [done|].
      rewrite Hs2; [by apply Htab|]. intros Hr. apply Hph. by eapply render_inj.
    + intros nm x. rewrite os_watches_snoc. destruct (decide (nm = render h)) as [->|Hne']; [eauto|].
      rewrite Hs2 by done. apply Honly.
    + by apply log_legal_snoc.
Qed.

(** Changes of the tree that keep all totals and need no call. *)
Lemma osi_tree s t' :
  osi s → strict t' → (∀ p, nz_wp (wp_at t' p)) →
  (∀ p, comps_ok sepc p → total P (wp_at t' p) = total P (wp_at (st_tree s) p)) → osi (with_tree s t').
Proof.
  intros [Hst Hnz Htab Honly Hleg] H1 H2 H3. split; try done.
  intros p Hp. cbn [st_log with_tree st_tree]. rewrite H3 by done. by apply Htab.
Qed.
Lemma osi_ticked s : osi s → osi (ticked s).
Proof. intros [? ? ? ? ?]. by split. Qed.
Lemma nz_empty : nz_wp ∅.
Proof. by intros k e _. Qed.
Lemma vis_create_nz x : incl_ev (Create P) x → vis P x ≠ 0.
Proof. intros H. apply (nz_incl_create P HP). by apply (proj1 (vis_incl_create P HP x)). Qed.
Lemma nz_wadd_rec wp e : nz_wp wp → nz_wp (wadd P wp KRec (recx e)).1.
Proof.
  intros H k x Hk. rewrite wadd_get by done. case_bool_decide; [|by apply H].
  intros [= <-]. apply vis_create_nz. unfold NonRecFacts.recx. clear. bits.
Qed.

Lemma osi_recFunc E e s h :
  nenv E → tinv (st_tree s) → osi s → is_Some (st_tree s !! h) → (∀ l c, e_W E l c = true) →
  osi (recFunc E e s h).1.
Proof.
  intros HE Ht Ho Hh HW. rewrite (recFunc_spec P sepc) by (done || apply HE). cbn [fst].
  apply osi_upd; try done.
  - apply nz_wadd_rec. apply Ho.
  - apply wadd_diff; [done|]. eapply wo_agg. by eapply tinv_wp_at.
Qed.

Lemma recFunc_covers E e s h :
  nenv E → tinv (st_tree s) → is_Some (st_tree s !! h) →
  wp_at (st_tree (recFunc E e s h).1) h !! KRec = Some (wget (wp_at (st_tree s) h) KRec .| recx e).
Proof.
  intros HE Ht Hh. rewrite (recFunc_spec P sepc) by (done || apply HE). cbn [fst].
  rewrite upd_tree, wp_at_set_wp, decide_True by done. rewrite wadd_get by done. by rewrite bool_decide_true.
Qed.


Lemma recFunc_grow E e s h :
  nenv E → tinv (st_tree s) → is_Some (st_tree s !! h) →
  grow (recx e) (st_tree s) (st_tree (recFunc E e s h).1).
Proof.
  intros HE Ht Hh. rewrite (recFunc_spec P sepc) by (done || apply HE). cbn [fst]. rewrite upd_tree. by apply grow_set_rec.
Qed.

(** Adding empty nodes. *)
Lemma osi_extends s t' :
  osi s →
  (∀ q nd, st_tree s !! q = Some nd → t' !! q = Some nd) →
  (∀ q nd, st_tree s !! q = None → t' !! q = Some nd → nd = newnode (render q) ∧ [] ∉ removelast q) →
  osi (with_tree s t').
Proof.
  intros Ho H1 H2.
  assert (∀ q, wp_at t' q = wp_at (st_tree s) q) as Hw.
  { intros q. unfold wp_at. destruct (st_tree s !! q) as [nd|] eqn:Eq; [by rewrite (H1 _ _ Eq)|].
    destruct (t' !! q) as [nd|] eqn:Eq'; [|done]. by destruct (H2 _ _ Eq Eq') as [-> _]. }
  apply osi_tree; [done| | |].
  - intros q [nd Hq]. destruct (st_tree s !! q) as [nd'|] eqn:Eq.
    + destruct (oi_strict _ Ho q) as [Ha Hb]; [eauto|]. split; [done|].
      unfold name_at in *. rewrite (H1 _ _ Eq). by rewrite Eq in Hb.
    + destruct (H2 _ _ Eq Hq) as [-> Hn]. split; [done|]. unfold name_at. by rewrite Hq.
  - intros q. rewrite Hw. apply Ho.
  - intros q _. by rewrite Hw.
Qed.

Lemma adddir_osi E e s h s' r :
  nenv E → u32 e → incl_ev (recursive P) e → tinv (st_tree s) → osi s → is_Some (st_tree s !! h) →
  [] ∉ h → reliable E →
  nd_adddir E (recFunc E e) s h = (s', r) →
  osi s' ∧ (r = LDone → incl_ev (recx e) (wget (wp_at (st_tree s') h) KRec)).
Proof.
  intros HE H32 Hrec Ht Ho Hh Hnil HW Hl.
  destruct (adddir_loop P HP sepc E HE e (λ s1 stack, osi s1 ∧ (∀ p, p ∈ stack → [] ∉ p) ∧
      (stack = [h] ∨ incl_ev (recx e) (wget (wp_at (st_tree s1) h) KRec))) s h s' r)
    as (_&_&_&HI); try done.
  - intros s1 p rest ents n (Ho1&Hst1&Hc1) Hg Ht1 Hp1. cbn zeta. intros Hrd Had.
    set (s2 := (recFunc E e s1 p).1) in *.
    assert (osi s2) as Ho2 by (by apply osi_recFunc).
    assert ([] ∉ p) as Hpn by (apply Hst1; left).
    assert (∀ q, q ∈ (adddir_children E (st_tree s2) p ents).2 → [] ∉ q) as Hqs.
    { intros q Hq. destruct (ad_only _ _ _ _ _ _ Had Hpn q Hq) as (de&Hde&_&_&->).
      assert (dirent_ok (e_sep E) de) as [Hok _].
      { pose proof (eo_readdir _ (ne_ok _ _ _ HE) _ _ _ Hrd) as Hf. rewrite Forall_forall in Hf. by apply Hf. }
      set_solver. }
    assert (grow (recx e) (st_tree s2) (adddir_children E (st_tree s2) p ents).1) as Hg2 by (by eapply added_grow).
    split_and!.
    + apply (osi_extends (ticked s2)); [by apply osi_ticked| |]; cbn [st_tree ticked].
      * apply (ad_ext _ _ _ _ _ _ Had).
      * intros q nd Eq Hq. destruct (ad_new _ _ _ _ _ _ Had _ _ Eq Hq) as (k&nm&Hk&_&Hin&->&Hnm).
        apply Hqs in Hin. rewrite Hnm by done. split; [done|]. subst q. by rewrite removelast_snoc.
    + intros q [Hq|Hq]%elem_of_app; [|apply Hst1; by right]. rewrite elem_of_reverse in Hq. by apply Hqs.
    + right. cbn [st_tree with_tree].
      assert (incl_ev (recx e) (wget (wp_at (st_tree s2) h) KRec)) as Hi.
      { destruct Hc1 as [[= -> ->]|Hc1].
        - unfold s2. rewrite (wget_Some _ _ _ (recFunc_covers E e s1 h HE Ht1 Hp1)). clear. bits.
        - pose proof (grow_rec_mono _ _ _ h Hg) as Hm. intros i Hi. by apply Hm, Hc1. }
      pose proof (grow_rec_mono _ _ _ h Hg2) as Hm. intros i Hi'. by apply Hm, Hi.
  - intros s1 p rest (Ho1&Hst1&Hc1) Ht1 Hp1. split_and!.
    + by apply osi_ticked, osi_recFunc.
    + set_solver.
    + right. cbn [st_tree ticked]. destruct Hc1 as [[= -> ->]|Hc1].
      * rewrite (wget_Some _ _ _ (recFunc_covers E e s1 h HE Ht1 Hp1)). clear. bits.
      * pose proof (grow_rec_mono _ _ _ h (recFunc_grow E e s1 p HE Ht1 Hp1)) as Hm. intros i Hi. by apply Hm, Hc1.
  - split_and!; [done| |by left]. by intros p ->%elem_of_list_singleton.
  - destruct r; [destruct HI as (?&_&[?|?])|destruct HI as (?&_&[?|?])|destruct HI as (?&?&_)]; done.
Qed.

Lemma walk_osi E e s h s' r :
  nenv E → u32 e → incl_ev (recursive P) e → tinv (st_tree s) → osi s → is_Some (st_tree s !! h) →
  reliable E →
  nd_walk E (recFunc E e) s h = (s', r) →
  osi s' ∧ incl_ev (recx e) (wget (wp_at (st_tree s') h) KRec).
Proof.
  intros HE H32 Hrec Ht Ho Hh HW Hl.
  destruct (walk_loop P HP sepc E HE e (λ s1 stack, osi s1 ∧
      (stack = [h] ∨ incl_ev (recx e) (wget (wp_at (st_tree s1) h) KRec))) s h s' r)
    as (_&_&_&_&_&Ho'&HI); try done.
  - intros s1 p rest ks (Ho1&Hc1) Ht1 Hp1 Hg. cbn zeta. intros _. split.
    + by apply osi_ticked, osi_recFunc.
    + right. cbn [st_tree ticked]. destruct Hc1 as [[= -> ->]|Hc1].
      * rewrite (wget_Some _ _ _ (recFunc_covers E e s1 h HE Ht1 Hp1)). clear. bits.
      * pose proof (grow_rec_mono _ _ _ h Hg) as Hm. intros i Hi. by apply Hm, Hc1.
  - split; [done|by left].
  - destruct HI; done.
Qed.

(** ** Stop *)
Lemma stop_upd E n s m h :
  nenv E → tinv (st_tree s) → osi s → min_ok P m → wp_at (st_tree s) h ≠ ∅ →
  (stop_fn E (KUser n) s m h).1 =
    upd E s h (stopf P n m (wp_at (st_tree s) h)) (wdelmin P m (wp_at (st_tree s) h) (KUser n) all32).2.
Proof.
  intros HE Ht Ho Hm Hne. unfold stop_fn, watchDelMin, stopf. rewrite (ne_plat _ _ _ HE).
  destruct (wdelmin_spec P HP m (wp_at (st_tree s) h) n) as (_&_&_&Hd); [by eapply tinv_wp_at|done|].
  destruct (wdelmin P m (wp_at (st_tree s) h) (KUser n) all32) as [wp d]. cbn [fst snd] in *.
  unfold upd, call_for. destruct (is_none d) eqn:En; [done|]. destruct (N.eqb_spec d.2 0) as [Hz|Hz]; [done|].
  destruct (N.eqb_spec d.1 0) as [Hz1|Hz1]; [|done]. exfalso.
  destruct Hd as [[_ ->]|[_ ->]]; [done|]. cbn [fst] in Hz1. revert Hz1. apply nz_total; [by eapply tinv_wp_at|apply Ho|done].
Qed.
Lemma nz_stopf n m wp : wp_ok wp → min_ok P m → nz_wp wp → nz_wp (stopf P n m wp).
Proof.
  intros Hwp Hm Hnz k e Hk He. destruct (wdelmin_spec P HP m wp n Hwp Hm) as (_&Hu&Hr&_). unfold stopf in He.
  destruct (decide (k = KRec)) as [->|Hkr].
  - rewrite Hr in He. destruct (wp !! KRec) as [old|]; [|done].
    destruct (bool_decide (old .& rest P m wp (KUser n) = 0)); [done|]. injection He as <-.
    apply vis_create_nz. clear. bits.
  - rewrite Hu in He by done. destruct (bool_decide (k = KUser n)); [done|]. by eapply Hnz.
Qed.
Lemma stop_osi E n s :
  nenv E → tinv (st_tree s) → osi s → reliable E → osi (nr_Stop E s (KUser n)).
Proof.
  intros HE Ht Ho HW. unfold nr_Stop.
  destruct (walkWatchpoint E (stop_fn E (KUser n)) s []) as [s' r] eqn:Ew. cbn [fst].
  destruct (ww_loop P sepc E HE (stop_fn E (KUser n)) (stopf P n) (stopf_empty P n) (stopf_ok P HP n)
    (λ s m h _ _ _, stop_tree P sepc E n s m h HE) (λ s _, osi s) s [] s' r) as (_&_&_&_&_&_&?); try done.
  { apply Ht. }
  intros s1 m p rest s2 ks Ho1 Ht1 Hp1 Hm _ _ _ _ [[-> _]|[-> Hne]] _ _; apply osi_ticked; [done|].
  rewrite stop_upd by done. apply osi_upd; try done.
  - apply nz_stopf; [by eapply tinv_wp_at|done|apply Ho1].
  - apply wdelmin_spec; [done|by eapply tinv_wp_at|done].
Qed.

(** ** Removal *)
Lemma os_unwatch log nm : os_watches (log ++ [(WUnwatch nm, true)]) = delete nm (os_watches log).
Proof. by rewrite os_watches_snoc. Qed.
Lemma remove_osi E s p :
  nenv E → tinv (st_tree s) → osi s → reliable E → gpath sepc p →
  osi (nr_internal E s (EI (Remove P) (render p) (Some true) fTypeDirectory)).
Proof.
  intros HE Ht Ho HW Hg. destruct (internal_remove_spec P HP sepc E s p HE Ht Hg) as [[-> _]|(s1&Hp&Hw&Htr&Hpan&->)]; [done|].
  pose proof (gpath_upath P HP sepc p Hg) as Hu.
  set (fn := λ (s : st) (_ : N) (h : path), ((wcallf E s (WUnwatch (name_at (st_tree s) h))).1, CNil)) in *.
  set (I := λ s2 (stack : list path), st_tree s2 = st_tree s ∧ log_legal P (st_log s2) ∧
    (∀ q, comps_ok sepc q → os_watches (st_log s2) !! render q =
       if decide (p `prefix_of` q ∧ ¬ under stack q) then None else opt_ev (total P (wp_at (st_tree s) q))) ∧
    (∀ nm x, os_watches (st_log s2) !! nm = Some x → ∃ q, comps_ok sepc q ∧ nm = render q)).
  destruct (ww_loop P sepc E HE fn (λ _ wp, wp) ltac:(done) ltac:(done)) with (I := I)
    (s := s) (h := p) (s' := s1) (r := LDone) as (_&_&_&_&_&_&(_&Hl&Htab&Honly)); try done.
  - intros s2 m h Ht2 Hh2 _. split_and!; [done| |done]. unfold fn. cbn [fst]. unfold wcallf. cbn [fst st_tree].
    symmetry. apply set_wp_same. intros nd Hnd. destruct (ti_wp _ _ _ Ht2 _ _ Hnd) as (wp&?&?). eauto.
  - intros s2 m q rest s3 ks (Htr2&Hl2&Htab2&Hon2) Ht2 Hq2 Hm Hwq Hnq Hpq Hanti Hs3 Hks _.
    assert (comps_ok sepc q) as Hcq by (by eapply ti_comps).
    rewrite Htr2 in Hq2, Hs3.
    assert (∀ x, under (((λ k, q ++ [k]) <$> ks) ++ rest) x ∨ x = q ∨ st_tree s !! x = None ↔ under (q :: rest) x ∨ st_tree s !! x = None) as Hund.
    { intros x. rewrite under_app, under_cons. split.
      - intros [[H|H]|[->|H]]; auto. apply under_elem in H as (y&(k&->&Hk)%elem_of_list_fmap&Hy).
        left; left. by eapply snoc_prefix_of.
      - intros [[H|H]|H]; auto. destruct (decide (x = q)) as [->|Hx]; [auto|].
        destruct (st_tree s !! x) as [nd|] eqn:Ex; [|auto].
        destruct (prefix_strict _ _ H ltac:(congruence)) as (k&r&->). left; left. apply under_elem.
        exists (q ++ [k]). split.
        + apply elem_of_list_fmap. exists k. split; [done|]. apply Hks.
          eapply (closed_prefix _ _ _ (tinv_closed _ _ _ Ht)); [|by eexists]. exists r. by rewrite <-app_assoc.
        + exists r. by rewrite <-app_assoc. }
    assert (¬ under (((λ k, q ++ [k]) <$> ks) ++ rest) q) as Hnq'.
    { rewrite under_app. intros [H|H].
      - apply under_elem in H as (y&(k&->&Hk)%elem_of_list_fmap&[r Hr]).
        apply (f_equal length) in Hr. rewrite !app_length in Hr. simpl in Hr. lia.
      - by apply (antichain_head _ _ Hanti). }
    assert (∀ x, x ≠ q → (if decide (p `prefix_of` x ∧ ¬ under (((λ k, q ++ [k]) <$> ks) ++ rest) x) then None
        else opt_ev (total P (wp_at (st_tree s) x))) =
      if decide (p `prefix_of` x ∧ ¬ under (q :: rest) x) then None else opt_ev (total P (wp_at (st_tree s) x))) as Hsame.
    { intros x Hx. destruct (st_tree s !! x) as [nd|] eqn:Ex.
      - assert (under (((λ k, q ++ [k]) <$> ks) ++ rest) x ↔ under (q :: rest) x) as Hiff.
        { specialize (Hund x). rewrite Ex in Hund. naive_solver. }
        destruct (decide (p `prefix_of` x ∧ ¬ under (q :: rest) x)) as [[? ?]|Hd].
        + rewrite decide_True; [done|]. by rewrite Hiff.
        + rewrite decide_False; [done|]. by rewrite Hiff.
      - assert (wp_at (st_tree s) x = ∅) as -> by (unfold wp_at; by rewrite Ex). rewrite total_empty.
        by repeat destruct (decide (_ ∧ _)). }
    assert (os_watches (st_log s2) !! render q = opt_ev (total P (wp_at (st_tree s) q))) as Hq.
    { rewrite Htab2 by done. rewrite decide_False; [done|]. intros [_ []]. apply under_cons. by left. }
    unfold I. destruct Hs3 as [[-> He]|[-> Hne]].
    + cbn [st_tree ticked st_log]. split_and!; try done.
      intros x Hcx. rewrite Htab2 by done. destruct (decide (x = q)) as [->|Hx]; [|symmetry; by apply Hsame].
      rewrite He, total_empty. by repeat destruct (decide (_ ∧ _)).
    + unfold fn, wcallf. cbn [fst st_tree ticked st_log]. rewrite HW, Hnq.
      assert (name_at (st_tree s) q = render q) as -> by (by apply (oi_strict _ Ho)).
      split_and!; try done.
      * apply log_legal_snoc; [done|]. simpl. rewrite Hq. rewrite opt_ev_nz; [eauto|].
        apply nz_total; [by eapply tinv_wp_at|apply Ho|done].
      * intros x Hcx. rewrite os_unwatch. destruct (decide (x = q)) as [->|Hx].
        -- rewrite lookup_delete. by rewrite decide_True.
        -- rewrite lookup_delete_ne by (intros Hr; apply Hx; symmetry; by eapply render_inj).
           rewrite Htab2 by done. symmetry. by apply Hsame.
      * intros nm x. rewrite os_unwatch. intros [_ ?]%lookup_delete_Some. eauto.
  - unfold I. split_and!; [done|apply Ho| |apply Ho].
    intros q Hq. rewrite decide_False; [by apply Ho|]. intros [Hpq []]. apply under_cons. by left.
  - split; cbn [st_tree st_log with_tree].
    + intros q [nd Hq].
      assert (st_tree s !! q = Some nd) as Hq'.
      { destruct (st_tree s !! q) as [nd'|] eqn:Eq; [|by rewrite r_del_None in Hq].
        rewrite <-Hq. pose proof (upath_spells P sepc E p HE Hu) as Hsp. rewrite (ne_sep _ _ _ HE) in *.
        destruct (r_del_spec sepc (e_vol E) false (st_tree s) p (render p) q (ti_wf _ _ _ Ht) Hsp) as (_&K1&K2); [done|eauto|].
        rewrite K2; [done|]. intros Hgone. apply K1 in Hgone. congruence. }
      destruct (oi_strict _ Ho q) as [Ha Hb]; [eauto|]. split; [done|].
      unfold name_at in *. rewrite Hq' in Hb. by rewrite Hq.
    + intros q. rewrite (wp_at_del P sepc) by done. destruct (decide (p `prefix_of` q)); [apply nz_empty|apply Ho].
    + intros q Hq. rewrite Htab by done. rewrite (wp_at_del P sepc) by done.
      destruct (decide (p `prefix_of` q)) as [Hpq|Hpq].
      * rewrite decide_True; [done|]. split; [done|]. apply under_nil.
      * rewrite decide_False by naive_solver. done.
    + done.
    + done.
Qed.

(** ** Plain Watch *)
Lemma call_legal s h wp' d c :
  osi s → comps_ok sepc h →
  diff_exact (total P (wp_at (st_tree s) h)) (total P wp') d →
  call_for (render h) d = Some c → legal P (os_watches (st_log s)) c.
Proof.
  intros Ho Hch [[Heq ->]|[Hne ->]]; [done|]. unfold call_for, is_none. cbn [fst snd].
  pose proof (oi_tab _ Ho h Hch) as Hth.
  set (D0 := total P (wp_at (st_tree s) h)) in *. set (D1 := total P wp') in *.
  assert ((D0 =? 0) && (D1 =? 0) = false) as ->.
  { apply andb_false_iff. destruct (N.eqb_spec D0 0); [right|by left]. apply N.eqb_neq. congruence. }
  destruct (N.eqb_spec D1 0) as [Hz|Hz].
  { intros [= <-]. rewrite opt_ev_nz in Hth by congruence. simpl. by rewrite Hth. }
  destruct (N.eqb_spec D0 0) as [Hz0|Hz0]; intros [= <-].
  { rewrite Hz0 in Hth. simpl. split; [done|]. split; [done|apply total_no_internal]. }
  rewrite opt_ev_nz in Hth by done. simpl. rewrite Hth. split_and!; [done|done|done|apply total_no_internal].
Qed.
Lemma user_vis e : user_ev P e → vis P e = e.
Proof. unfold user_ev, vis. intros H. clear - H. bits. Qed.
Lemma watch_osi E s h n e s' r :
  nenv E → tinv (st_tree s) → osi s → is_Some (st_tree s !! h) → u32 e → user_ev P e → e ≠ 0 →
  nr_watch E s h (KUser n) e = (s', r) → osi s'.
Proof.
  intros HE Ht Ho Hh H32 Hue Hnz0 Hw.
  assert (disj_ev e (omit P)) as Hom by (clear - Hue; unfold user_ev, internal in *; bits).
  set (wp := wp_at (st_tree s) h) in *.
  assert (wp_ok wp) as Hwp by (by eapply tinv_wp_at).
  assert (nz_wp wp) as Hnz by apply Ho.
  assert (comps_ok sepc h) as Hch by (by eapply ti_comps).
  assert (name_at (st_tree s) h = render h) as Hnm by (by apply (oi_strict _ Ho)).
  destruct (nr_watch_cases P sepc E s h n e s' r) as [(->&Hok&Hs')|(->&c&wp'&Hc&HW&->&Hok&Hoth&Hn&Hn0)]; try done; try apply HE; fold wp in Hok;
    try fold wp in Hs'; try fold wp in Hc; try fold wp in Hoth; try fold wp in Hn.
  - (* performed *)
    unfold nr_watch in Hw. rewrite (node_wadd_spec P sepc) in Hw by (done || apply HE). fold wp in Hw.
    rewrite Hs'. apply osi_upd; try done.
    + intros k x Hk. rewrite wadd_get by done. case_bool_decide as Ek; [|by apply Hnz].
      intros [= <-]. intros Hz. apply Hnz0. rewrite <-(user_vis e Hue). unfold vis in *. clear - Hz. bits.
    + apply wadd_diff; [done|apply Hwp].
    + intros c Hc.
      assert (is_none (wadd P wp (KUser n) e).2 = false) as Hin.
      { unfold call_for in Hc. by destruct (is_none _). }
      pose proof (wadd_diff_nz P wp (KUser n) e ltac:(done) (wo_agg _ _ Hwp) Hin) as Hz.
      rewrite Hin in Hw. rewrite (proj2 (N.eqb_neq _ _) Hz) in Hw.
      cbn [st_tree with_tree] in Hw. rewrite name_at_set_wp, Hnm in Hw.
      unfold call_for in Hc. rewrite Hin, (proj2 (N.eqb_neq _ _) Hz) in Hc.
      destruct ((wadd P wp (KUser n) e).2.1 =? 0); injection Hc as <-; unfold wcallf in Hw; cbn [st_log with_tree] in Hw;
        by destruct (e_W E (st_log s) _).
  - (* refused *)
    rewrite Hnm in Hc.
    set (U := wget wp (KUser n)) in *. set (T := total P wp) in *.
    assert (incl_ev (U .&^ internal P) T) as HUT.
    { intros i [H1 H2]%has_ldiff. unfold T, total. apply has_ldiff. split; [|done]. apply has_others_get. by exists (KUser n). }
    assert (incl_ev (wget wp' (KUser n) .&^ internal P) T) as Hin by (rewrite Hn; clear - HUT; bits).
    assert (incl_ev (U .&^ internal P) (wget wp' (KUser n))) as Hin2 by (rewrite Hn; clear - HUT; bits).
    assert (total P wp' = T) as Htot.
    { apply has_ext. intros i. unfold total at 1. rewrite has_ldiff, has_others_get. split.
      - intros [(k&Hk&Hb) Hi]. destruct (decide (k = KUser n)) as [->|Hkn].
        + apply Hin. by apply has_ldiff.
        + unfold T, total. apply has_ldiff. split; [|done]. apply has_others_get. exists k. split; [done|].
          unfold wget in *. by rewrite Hoth in Hb.
      - unfold T, total. rewrite has_ldiff, has_others_get. intros [(k&Hk&Hb) Hi]. split; [|done].
        destruct (decide (k = KUser n)) as [->|Hkn].
        + exists (KUser n). split; [done|]. apply Hin2. by apply has_ldiff.
        + exists k. split; [done|]. unfold wget in *. by rewrite Hoth. }
    assert (nz_wp wp') as Hnz'.
    { intros k x Hk Hx. destruct (decide (k = KUser n)) as [->|Hkn]; [|rewrite Hoth in Hx by done; by eapply Hnz].
      rewrite (wget_Some _ _ _ Hx) in Hn, Hin2.
      destruct (wp !! KUser n) as [u|] eqn:Eu.
      - pose proof (Hnz (KUser n) u ltac:(done) Eu) as Hu. unfold U in Hin2. rewrite (wget_Some _ _ _ Eu) in Hin2.
        intros Hz. apply Hu. unfold vis in *. clear - Hin2 Hz. bits.
      - unfold U in Hn. rewrite (wget_None _ _ Eu) in Hn. intros Hz. destruct Hn0. rewrite Hx. f_equal.
        unfold vis, user_ev in *. clear - Hn Hz Hue. bits. }
    assert (osi (with_tree s (set_wp (st_tree s) h wp'))) as Ho2.
    { apply osi_tree; [done| | |].
      - apply strict_set_wp, Ho.
      - intros p. rewrite wp_at_set_wp. destruct (decide (p = h ∧ is_Some (st_tree s !! h))) as [[-> _]|_]; [done|apply Ho].
      - intros p _. rewrite wp_at_set_wp. destruct (decide (p = h ∧ is_Some (st_tree s !! h))) as [[-> _]|_]; done. }
    destruct Ho2 as [K1 K2 K3 K4 K5]. split; cbn [st_tree st_log with_tree] in *; try done.
    { intros p Hp. rewrite os_watches_snoc, os_step_false. by apply K3. }
    { intros nm x. rewrite os_watches_snoc, os_step_false. apply K4. }
    apply log_legal_snoc; [done|]. eapply call_legal; [exact Ho|exact Hch| |exact Hc].
    apply wadd_diff; [done|apply Hwp].
Qed.

(** ** Recursive Watch *)
Lemma watchrec_osi E s h n e s' r :
  nenv E → tinv (st_tree s) → osi s → is_Some (st_tree s !! h) → [] ∉ h → reliable E →
  u32 e → incl_ev (recursive P) e → disj_ev e (omit P) → vis P e ≠ 0 →
  nr_watchrec E s h (KUser n) e = (s', r) → osi s'.
Proof.
  intros HE Ht Ho Hh Hnil HW H32 Hrec Hom Hnz Hw.
  destruct (watchrec_spec P HP sepc E s h n e s' r) as (_&_&[(_&_&_&r'&_&Ha)|(->&s1&wp'&->&Ht1&Hh1&Hg&Hrg&Hc)]); try done.
  { by eapply adddir_osi. }
  assert (osi s1 ∧ incl_ev (vis P (recx e)) (wget (wp_at (st_tree s1) h) KRec)) as [Ho1 Hcov].
  { destruct Hc as [[-> ?]|[[_ Ha]|[_ Ha]]].
    - done.
    - destruct (adddir_osi E e s h s1 LDone) as [? Hi]; try done. split; [done|].
      intros i [H1 _]%has_ldiff. by apply Hi.
    - destruct (walk_osi E e s h s1 LDone) as [? Hi]; try done. split; [done|].
      intros i [H1 _]%has_ldiff. by apply Hi. }
  pose proof (rg_total _ _ _ _ _ Hrg Hcov) as Htot.
  assert (∀ p, wp_at (set_wp (st_tree s1) h wp') p = if decide (p = h) then wp' else wp_at (st_tree s1) p) as Hwp.
  { intros p. rewrite wp_at_set_wp. destruct (decide (p = h)) as [->|Hne].
    - by rewrite decide_True.
    - by rewrite decide_False by naive_solver. }
  apply osi_tree; [done|apply strict_set_wp, Ho1| |].
  - intros p. rewrite Hwp. destruct (decide (p = h)) as [->|]; [|apply Ho1].
    intros k x Hk Hx. destruct (decide (k = KRec)) as [->|Hkr].
    { rewrite (rg_rec _ _ _ _ _ Hrg) in Hx. injection Hx as <-. apply vis_create_nz. unfold NonRecFacts.recx. clear. bits. }
    destruct (decide (k = KUser n)) as [->|Hkn].
    { rewrite (rg_user _ _ _ _ _ Hrg) in Hx. injection Hx as <-. intros Hz. apply Hnz. unfold vis in *. clear - Hz. bits. }
    rewrite (rg_other _ _ _ _ _ Hrg) in Hx by done. by eapply (oi_nz _ Ho1).
  - intros p _. rewrite Hwp. by destruct (decide (p = h)) as [->|].
Qed.

(** ** Creation *)
Lemma removelast_prefix_nil (p q : path) : [] ∉ removelast p → q `prefix_of` p → [] ∉ removelast q.
Proof.
  intros Hp [r ->]. destruct r as [|x r]; [by rewrite app_nil_r in Hp|]. rewrite removelast_app in Hp by done.
  intros Hin. apply Hp. apply elem_of_app. left.
  clear - Hin. induction q as [|c q IH]; [done|]. simpl in Hin. destruct q; [by apply elem_of_nil in Hin|].
  apply elem_of_cons in Hin as [->|Hin]; [left|right]. by apply IH.
Qed.
Lemma create_osi E s ev p :
  nenv E → tinv (st_tree s) → osi s → reliable E → gpath sepc p → ev ≠ Remove P →
  osi (nr_internal E s (EI ev (render p) (Some true) fTypeDirectory)).
Proof.
  intros HE Ht Ho HW Hg Hev.
  destruct (internal_create_cases P HP sepc E s ev p HE Ht Hg Hev)
    as [[-> _]|(q&t1&e&r&Hq&Hqe&_&Ht1&Hp1&Hw1&Hx1&Hx2&Ha)]; [done|].
  set (s' := nr_internal E s (EI ev (render p) (Some true) fTypeDirectory)) in *.
  assert (wp_ok (wp_at (st_tree s) q)) as Hwq by (by eapply tinv_wp_at).
  destruct Hg as (Hg1&Hg2&Hg3).
  destruct (adddir_osi E e (with_tree s t1) p s' r) as (H1&_); try done.
  - by eapply wo_u32.
  - pose proof (wo_rec _ _ Hwq _ Hqe) as Hx. unfold recbits in Hx. clear - Hx. bits.
  - apply osi_extends; [done|done|]. intros x nd Hx Hx'. destruct (Hx2 _ _ Hx Hx') as [Hxp [nm ->]].
    assert ([] ∉ x) as Hnx by (intros Hin; apply Hg3; destruct Hxp as [y ->]; set_solver).
    split.
    + f_equal. pose proof (tinv_name P sepc t1 x Ht1 Hnx ltac:(eauto)) as Hn. unfold name_at in Hn. by rewrite Hx' in Hn.
    + eapply removelast_prefix_nil; [|done]. intros Hin. apply Hg3. clear - Hin. induction p as [|c p IH]; [done|].
      simpl in Hin. destruct p; [by apply elem_of_nil in Hin|]. apply elem_of_cons in Hin as [->|Hin]; [left|right]. by apply IH.
Qed.

(** ** All operations *)
Lemma osi_init : osi init_st.
Proof.
  split; cbn [st_tree st_log init_st].
  - intros p [nd [<- <-]%lookup_singleton_Some]. split; [apply not_elem_of_nil|]. unfold name_at. by rewrite lookup_singleton.
  - intros p. unfold wp_at. destruct (decide (p = [])) as [->|Hp].
    + rewrite lookup_singleton. apply nz_empty.
    + rewrite lookup_singleton_ne by done. apply nz_empty.
  - intros p _. assert (wp_at {[[] := newnode []]} p = ∅) as ->.
    { unfold wp_at. destruct (decide (p = [])) as [->|Hp].
      + by rewrite lookup_singleton. + by rewrite lookup_singleton_ne. }
    by rewrite total_empty.
  - done.
  - apply log_legal_nil.
Qed.
Lemma nstep_osi E s o s' r :
  nenv E → nop_ok o → os_good E o → tinv (st_tree s) → osi s → nstep E s o = (s', r) → osi s'.
Proof.
  intros HE Hok Hgood Ht Ho Hs. destruct o as [p isrec n e|n|ev p]; simpl in Hok, Hs.
  - destruct Hok as (Hu&H32&Hue). unfold nr_Watch in Hs.
    destruct (nr_add_spec P sepc E (st_tree s) p HE Ht Hu) as (t1&Hadd&Ht1&Hp1&Hw1&Hl1).
    rewrite Hadd in Hs.
    assert (osi (with_tree s t1)) as Ho1.
    { apply osi_extends; [done| |].
      - intros q nd Hq. by rewrite Hl1, Hq.
      - intros q nd Hq. rewrite Hl1, Hq. destruct (decide (q ≠ [] ∧ q `prefix_of` p)) as [[Hq1 Hq2]|]; [|done].
        intros [= <-]. split; [done|]. eapply removelast_prefix_nil; [|done]. apply Hu. }
    destruct isrec; simpl in Hgood.
    + destruct Hgood as (Hnz&Hnil&HW). rewrite (ne_plat _ _ _ HE) in Hs.
      eapply (watchrec_osi E (with_tree s t1) p n (e .| recursive P)); try done.
      * apply u32_lor; [done|by apply u32_recursive].
      * clear. bits.
      * pose proof (d_re_om P HP) as Hd. unfold user_ev, internal in Hue. clear - Hd Hue. bits.
      * intros Hz. apply Hnz. unfold vis, user_ev in *. clear - Hz Hue. bits.
    + by eapply (watch_osi E (with_tree s t1) p n e).
  - injection Hs as <- <-. by apply stop_osi.
  - injection Hs as <- <-. destruct (decide (ev = Remove P)) as [->|Hev]; [by apply remove_osi|by apply create_osi].
Qed.
Lemma nexec_osi tr s : nexec_where P sepc os_good tr s → tinv (st_tree s) ∧ osi s.
Proof.
  induction 1 as [|tr s E o s' r Hx [IH1 IH2] HE Ho Hg Hs]; [split; [by apply tinv_init|apply osi_init]|].
  split; [|by eapply nstep_osi]. by destruct (nstep_spec P HP sepc E s o s' r) as (?&_).
Qed.
End os.
