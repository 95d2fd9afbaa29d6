(** * RecLawsFacts: calls that leave the recursive tree as it is *)
From Verif Require Import Base Event Watchpoint WatchpointFacts Paths PathsFacts Loop LoopFacts
  Node NodeFacts SpecTree WalkFacts RootFacts NonRec NonRecWp Rec SpecNonRec SpecOS SpecRec RecFacts RecReg RecStop RecDisp RecStep RecTidy RecCopy RecOS RecOrder.
Local Open Scope N_scope.

Section laws.
Context (P : platform) (HP : platform_ok P) (sepc : ascii) (w : bool) (isvol : str → Prop) (strict : bool).
Notation nameof := (nameof sepc w).
Notation renv := (renv P sepc w isvol).
Notation rpath := (rpath sepc w isvol).
Notation rinv := (rinv P sepc w isvol).
Notation wpt := (wpt P).
Notation wt := (wt P).
Notation tidy := (tidy P sepc w isvol strict).

Lemma wadd_again wp n e : wpt wp → e ≠ 0 → incl_ev e (wget wp (KUser n)) → wadd P wp (KUser n) e = (wp, none).
Proof.
  intros Hwp Hz Hi. assert ((wadd P wp (KUser n) e).1 = wp) as Heq.
  { apply (agg_ok_ext P); [by apply agg_ok_wadd, Hwp|apply Hwp|]. intros k Hk. rewrite wadd_get by done.
    case_bool_decide as Hkn; [|done]. subst k. unfold wget in *. destruct (wp !! KUser n) as [x|]; simpl in *.
    - f_equal. clear - Hi. bits.
    - exfalso. apply Hz. clear - Hi. bits. }
  pose proof (wadd_norm P wp n e) as Hd. rewrite Heq in Hd. destruct (wadd P wp (KUser n) e) as [wp' d]. cbn [fst snd] in *. subst.
  unfold norm. by rewrite N.eqb_refl.
Qed.
Lemma wdel_idle wp n : wpt wp → wget wp (KUser n) = 0 → wdel P wp (KUser n) all32 = (wp, none).
Proof.
  intros Hwp Hz. assert ((wdel P wp (KUser n) all32).1 = wp) as Heq.
  { apply (agg_ok_ext P); [by apply wdel_agg|apply Hwp|]. intros k Hk. rewrite wdel_get by done.
    case_bool_decide as Hkn; [|done]. subst k. rewrite Hz. unfold wget in Hz. destruct (wp !! KUser n) as [x|] eqn:Ex; simpl in *; [|done].
    exfalso. apply (wt_vis _ _ Hwp _ _ Ex). subst x. done. }
  pose proof (wdel_norm P wp n all32) as Hd. rewrite Heq in Hd. destruct (wdel P wp (KUser n) all32) as [wp' d]. cbn [fst snd] in *. subst.
  unfold norm. by rewrite N.eqb_refl.
Qed.
Lemma with_tree_id s : with_tree s (st_tree s) = s.
Proof. by destruct s. Qed.
Lemma norm_same x : norm x x = none.
Proof. unfold norm. by rewrite N.eqb_refl. Qed.
Lemma set_wp_id (t : tree) h : is_Some (t !! h ≫= nwatch) → set_wp t h (wp_at t h) = t.
Proof.
  intros [wp Hw]. unfold set_wp, wp_at. destruct (t !! h) as [nd|] eqn:E1; [|done]. simpl in Hw. rewrite Hw. simpl.
  apply insert_id. rewrite E1. by destruct nd; simpl in *; subst.
Qed.

Section env.
Context (E : env) (HE : renv E).
Let HEp : e_plat E = P := re_plat _ _ _ _ _ HE.
Lemma node_again s h n e : is_Some (st_tree s !! h ≫= nwatch) → wpt (wp_at (st_tree s) h) → e ≠ 0 →
  incl_ev e (wget (wp_at (st_tree s) h) (KUser n)) → node_wadd E s h (KUser n) e = (s, none).
Proof.
  intros Hs Hw Hz Hi. unfold node_wadd. rewrite HEp, wadd_again by done. rewrite set_wp_id, with_tree_id by done.
  by destruct Hs as [? ->].
Qed.
Lemma rwatchAdd_again s h n e : is_Some (st_tree s !! h ≫= nwatch) → wpt (wp_at (st_tree s) h) → e ≠ 0 →
  incl_ev e (wget (wp_at (st_tree s) h) (KUser n)) → rwatchAdd E s h (KUser n) e = (s, none).
Proof.
  intros Hs Hw Hz Hi. unfold rwatchAdd. rewrite node_again by done. cbn [fst snd none]. rewrite norm_same.
  by destruct (_ =? 0)%nat.
Qed.
Lemma inact_some (t : tree) h (k : key) : wget (wp_at t h) k ≠ 0 → is_Some (t !! h ≫= nwatch).
Proof.
  intros H. unfold wp_at in H. destruct (t !! h) as [nd|]; simpl in *; [|by rewrite wget_empty in H].
  destruct (nwatch nd); [eauto|]. by rewrite wget_empty in H.
Qed.
Lemma addInactive_again s h n e : wpt (wp_at (st_tree s) (inact h)) → e ≠ 0 →
  incl_ev e (wget (wp_at (st_tree s) (inact h)) (KUser n)) → watchAddInactive E s h (KUser n) e = (s, none).
Proof.
  intros Hw Hz Hi. assert (is_Some (st_tree s !! inact h ≫= nwatch)) as Hs.
  { apply (inact_some _ _ (KUser n)). intros H0. rewrite H0 in Hi. apply Hz. clear - Hi. bits. }
  unfold watchAddInactive. destruct Hs as [wp Hs]. rewrite Hs. rewrite node_again by (by eauto || done).
  cbn [fst snd none]. by rewrite norm_same.
Qed.
Lemma rec_add_same t p : rinv t → rpath p → is_Some (t !! p) → r_add (e_sep E) (e_vol E) t (nameof p) = (t, Some p).
Proof.
  intros Ht Hp Hs. destruct (rec_add_spec P sepc w isvol E t p HE Ht Hp) as (t1&->&Ht1&_&Hold&_&Hnew). f_equal.
  apply map_eq. intros q. destruct (decide (is_Some (t !! q))) as [Hq|Hq]; [by apply Hold|].
  destruct (t1 !! q) as [nd|] eqn:Eq; [|destruct (t !! q) eqn:Eq'; [by destruct Hq; eauto|done]].
  exfalso. destruct (Hnew q) as [K|K]; [eauto|done|]. apply Hq. apply (closed_prefix t q p); [by eapply rinv_closed|done|done].
Qed.
(** A Watch for events the channel already has. *)
Lemma rec_again s m p isrec n e : tidy (st_tree s) m → rpath p → e ≠ 0 →
  incl_ev (e .| rec_bit P isrec) (rureg (st_tree s) p n) → rec_Watch E s (nameof p) isrec (KUser n) e = (s, ROk).
Proof.
  intros Ht Hp Hz Hi. assert ([] ∉ p) as Hpp by apply Hp. pose proof (td_inv _ _ _ _ _ _ _ Ht) as Hinv.
  unfold rec_Watch. rewrite HEp.
  assert ((if isrec then e .| recursive P else e) = e .| rec_bit P isrec) as -> by (destruct isrec; cbn [rec_bit]; [done|by rewrite N.lor_0_r]).
  assert (e .| rec_bit P isrec ≠ 0) as Hz' by (intros H0; apply Hz; clear - H0; bits). set (e' := e .| rec_bit P isrec) in *. clearbody e'. clear Hz e.
  assert (wget (wp_at (st_tree s) p) (KUser n) ≠ 0) as Hg.
  { intros H0. unfold rureg in Hi. rewrite H0 in Hi. apply Hz'. clear - Hi. bits. }
  assert (is_Some (st_tree s !! p ≫= nwatch)) as Hs by (by apply (inact_some _ _ (KUser n))).
  assert (is_Some (st_tree s !! p)) as Hs' by (destruct (st_tree s !! p); [eauto|by destruct Hs]).
  pose proof (td_wp _ _ _ _ _ _ _ Ht) as Hw.
  rewrite rec_add_same by done. rewrite with_tree_id.
  assert (∀ p q, rpath p → rpath q → nameof p = nameof q → p = q) as Hinj by (intros ? ?; by apply (name_inj P sepc w isvol E)).
  pose proof (find_spec P HP sepc w isvol E (st_tree s) p HE Hinv Hp) as Hf.
  destruct (find_parent E (st_tree s) (nameof p)) as [[h self]|].
  - destruct Hf as (Hpre&->&Hnz&Hsh&Hab). rewrite (watchTotal_wt P E) in Hnz by done.
    assert ([] ∉ h) as Hh by (eapply plain_prefix; [done|apply Hp]).
    destruct (td_topmost P sepc w isvol strict Hinj _ _ h Ht Hh Hnz) as [Hrh Wh].
    { intros q K1 K2. rewrite <-(watchTotal_wt P E) by done. by apply Hab. }
    unfold case1. case_bool_decide as Hhp.
    + subst h. by rewrite rwatchAdd_again by done.
    + rewrite addInactive_again; [|done|done|].
      * change (is_none none) with true. cbv iota. by rewrite rwatchAdd_again by done.
      * intros i Hi0. apply (td_cov _ _ _ _ _ _ _ Ht h p n i); try done. by apply Hi.
  - exfalso. apply nonzero_bit in Hg as [i Hg]. apply (wt_reg P (st_tree s) p n i (Hw p) Hg). rewrite <-(watchTotal_wt P E) by done.
    apply Hf; [done|]. intros _. by apply (rpath_ne sepc w isvol).
Qed.

(** A Stop of a channel without registrations. *)
Lemma node_idle s h n : is_Some (st_tree s !! h ≫= nwatch) → wpt (wp_at (st_tree s) h) →
  wget (wp_at (st_tree s) h) (KUser n) = 0 → node_wdel E s h (KUser n) all32 = (s, none).
Proof.
  intros Hs Hw Hz. unfold node_wdel. rewrite HEp, wdel_idle by done. rewrite set_wp_id, with_tree_id by done.
  by destruct Hs as [? ->].
Qed.
Lemma rwatchDel_idle s h n : rinv (st_tree s) → [] ∉ h → is_Some (st_tree s !! h) → (∀ q, wpt (wp_at (st_tree s) q)) →
  wget (wp_at (st_tree s) h) (KUser n) = 0 → wget (wp_at (st_tree s) (inact h)) (KUser n) = 0 →
  rwatchDel E s h (KUser n) all32 = (s, none).
Proof.
  intros Ht Hh Hs Hw Hz1 Hz2. unfold rwatchDel. rewrite node_idle by (done || by rewrite (rinv_some P sepc w isvol)).
  destruct (Nat.eqb_spec (size (wp_at (st_tree s) (inact h))) 0) as [|Hne]; [done|].
  rewrite node_idle; [|  |done|done].
  - cbn [fst snd none]. by rewrite norm_same.
  - unfold wp_at in Hne. destruct (st_tree s !! inact h) as [nd|]; simpl in *; [|by rewrite map_size_empty in Hne].
    destruct (nwatch nd); [eauto|]. destruct Hne. apply (map_size_empty (M := gmap key)).
Qed.
Definition same (s s' : st) : Prop := st_tree s' = st_tree s ∧ st_log s' = st_log s ∧ st_panic s' = st_panic s.
Lemma rec_stop_idle s m n : tidy (st_tree s) m → (∀ p, [] ∉ p → rureg (st_tree s) p n = 0) → same s (rec_Stop E s (KUser n)).
Proof.
  intros Ht Hz. pose proof (td_inv _ _ _ _ _ _ _ Ht) as Hinv. pose proof (td_wp _ _ _ _ _ _ _ Ht) as Hw.
  assert (∀ p, [] ∉ p → wget (wp_at (st_tree s) (inact p)) (KUser n) = 0) as Hzi.
  { intros p Hp. destruct (decide (wget (wp_at (st_tree s) (inact p)) (KUser n) = 0)) as [|Hne]; [done|]. exfalso.
    apply nonzero_bit in Hne as [i Hi]. destruct (td_in _ _ _ _ _ _ _ Ht p n i Hp Hi) as (q&_&Hq&Hqi).
    specialize (Hz q Hq). unfold rureg in Hz. rewrite Hz in Hqi. by apply has_0 in Hqi. }
  assert (closed (st_tree s)) as Hcl by (by eapply rinv_closed).
  assert (∀ s' h, same s s' → [] ∉ h → is_Some (st_tree s !! h) → rwatchDel E s' h (KUser n) all32 = (s', none)) as Hdel.
  { intros s' h (H1&H2&H3) Hh Hs. apply rwatchDel_idle; rewrite ?H1; try done; [by apply Hz|by apply Hzi]. }
  assert (∀ s', same s s' → same s (ticked s')) as Htick by (by intros s' (?&?&?)).
  assert (∀ fn : st → path → st * cb, (∀ s' h, same_nodes (st_tree s') (st_tree (fn s' h).1)) →
    (∀ s' h, same s s' → [] ∉ h → is_Some (st_tree s !! h) → same s (fn s' h).1 ∧ (fn s' h).2 ≠ CErr) →
    ∀ s' h, same s s' → [] ∉ h → is_Some (st_tree s !! h) → same s (nd_walk E fn s' h).1) as Hwalk.
  { intros fn Hn Hfn s' h Hs' Hh Hsh.
    destruct (walk_mark E (eo_ord _ (re_ok _ _ _ _ _ HE)) fn Hn (same s) (λ _ _, True) (λ _, True) (st_tree s) h) with (s := s') as (s2&->&H2&_); try done.
    - intros x h1 Hx Hsn [Hx1 (r&->&Hr)] _. destruct (Hfn x (h ++ r) Hx) as [K1 K2]; [set_solver|done|]. by split_and!.
    - apply Hs'. }
  unfold rec_Stop. apply Hwalk.
  - apply (rstop_nodes E n).
  - intros s' h Hs' Hh Hsh. unfold rstop_fn. rewrite Hdel by done. change (is_none none) with true. cbn [andb].
    destruct (_ =? 0); [done|]. cbn [fst snd]. split; [|done]. apply Hwalk; try done.
    + intros x h'. apply (rwatchDel_nodes E n).
    + intros x h' Hx Hh' Hxs. by rewrite Hdel by done.
  - done.
  - by intros ?%elem_of_nil.
  - apply (twf_root _ _ _ (ri_wf _ _ _ _ _ Hinv)).
Qed.
End env.
End laws.
