(** * InotifyTab: the descriptor table over histories *)
From Verif Require Import Base Event Paths PathsFacts Clean SpecClean CleanFacts Inotify SpecInotify InotifyFacts.
Local Open Scope N_scope.

Lemma head_filter_Some {A} (Q : A → Prop) `{∀ x, Decision (Q x)} (l : list A) x :
  head (filter Q l) = Some x → x ∈ l ∧ Q x.
Proof.
  intros Hh. assert (x ∈ filter Q l) as Hx by (destruct (filter Q l); [done|injection Hh as ->; left]).
  apply elem_of_list_filter in Hx. tauto.
Qed.
Lemma head_filter_None {A} (Q : A → Prop) `{∀ x, Decision (Q x)} (l : list A) x :
  head (filter Q l) = None → x ∈ l → ¬ Q x.
Proof.
  intros Hh Hx HQ. assert (x ∈ filter Q l) as Hf by (apply elem_of_list_filter; done).
  destruct (filter Q l); [by apply elem_of_nil in Hf|done].
Qed.
Lemma kfind_Some k ino wd : kfind k ino = Some wd → ∃ m, k !! wd = Some (KW ino m).
Proof.
  unfold kfind. destruct (head _) as [[wd' [i m]]|] eqn:Eh; [|done]. intros [= ->].
  apply head_filter_Some in Eh as [Hx Hi]. simpl in Hi. subst i. exists m. by apply elem_of_map_to_list.
Qed.
Lemma kfind_None k ino wd m : kfind k ino = None → k !! wd ≠ Some (KW ino m).
Proof.
  unfold kfind. destruct (head _) as [|] eqn:Eh; [done|]. intros _ Hk.
  eapply (head_filter_None _ _ (wd, KW ino m)) in Eh; [by apply Eh|]. by apply elem_of_map_to_list.
Qed.
Lemma known_check e : negb (e .&^ (All linux .| IN_ALL_EVENTS) =? 0) = false ↔ known e.
Proof.
  rewrite negb_false_iff, N.eqb_eq. unfold known, IN_ALL_EVENTS. split; intros H.
  - intros i Hi. destruct (decide (has (All linux .| 0xfff) i)) as [|Hn]; [done|].
    assert (has 0 i) as Hz by (rewrite <-H; by apply has_ldiff). by apply has_0 in Hz.
  - apply zero_bits. intros i. destruct (N.testbit _ i) eqn:E; [|done].
    apply has_ldiff in E as [H1 H2]. by apply H in H1.
Qed.

(** ** What one step does *)
Inductive ichange (s : ist) : iop → bool → option positive → ist → Prop :=
  | ic_same o r ino : (∀ p e, (o, r) ≠ (IWatch p e, true)) → (∀ p, (o, r) ≠ (IUnwatch p, true)) → (o = IClose → i_open s = false) →
      (∀ i, o ≠ IGone i) → ichange s o r ino s
  | ic_open o ino p e : o = IWatch p e → i_open s = false → ichange s o false ino (ISt true (i_m s) ∅ 1)
  | ic_upd p e ino wd m s1 : known e → s1 = (if i_open s then s else ISt true (i_m s) ∅ 1) → i_k s1 !! wd = Some (KW ino m) →
      ichange s (IWatch p e) true (Some ino) (ISt (i_open s1) (<[wd := Wd p e]> (i_m s1)) (<[wd := KW ino (encode e)]> (i_k s1)) (i_next s1))
  | ic_new p e ino s1 : known e → s1 = (if i_open s then s else ISt true (i_m s) ∅ 1) → (∀ wd m, i_k s1 !! wd ≠ Some (KW ino m)) →
      ichange s (IWatch p e) true (Some ino)
        (ISt (i_open s1) (<[i_next s1 := Wd p e]> (i_m s1)) (<[i_next s1 := KW ino (encode e)]> (i_k s1)) (i_next s1 + 1))
  | ic_del p wd m ino : i_m s !! wd = Some (Wd p m) →
      ichange s (IUnwatch p) true ino (ISt (i_open s) (delete wd (i_m s)) (delete wd (i_k s)) (i_next s))
  | ic_close r ino : i_open s = true → ichange s IClose r ino (ISt false ∅ ∅ (i_next s))
  | ic_gone i r ino : ichange s (IGone i) r ino (k_gone s i).
Lemma istep_change E s o s' r : ienv_ok E → istep E s o = (s', r) → ichange s o r (ie_ino E) s'.
Proof.
  intros HE. destruct o as [p e|p| |i]; cbn [istep].
  - unfold i_watch. destruct (negb (e .&^ _ =? 0)) eqn:Ek; [intros [= <- <-]; by constructor|].
    apply known_check in Ek. unfold lazyinit.
    destruct (i_open s) eqn:Eo; [|destruct (ie_ok E)].
    + destruct (ie_ino E) as [ino|]; [|intros [= <- <-]; by constructor]. unfold kadd.
      destruct (kfind (i_k s) ino) as [wd|] eqn:Ef.
      * destruct (kfind_Some _ _ _ Ef) as [m Hm]. intros [= <- <-].
        apply (ic_upd s p e ino wd m s Ek); [by rewrite Eo|done].
      * intros [= <- <-]. apply (ic_new s p e ino s Ek); [by rewrite Eo|].
        intros wd m. by apply kfind_None.
    + destruct (ie_ino E) as [ino|]; [|intros [= <- <-]; by eapply ic_open]. unfold kadd. cbn [i_k i_next i_m i_open].
      destruct (kfind ∅ ino) as [wd|] eqn:Ef; [destruct (kfind_Some _ _ _ Ef) as [m Hm]; by rewrite lookup_empty in Hm|].
      intros [= <- <-]. apply (ic_new s p e ino (ISt true (i_m s) ∅ 1) Ek); [by rewrite Eo|].
      intros wd m. cbn. by rewrite lookup_empty.
    + intros [= <- <-]. by constructor.
  - unfold i_unwatch. destruct (head _) as [[wd w]|] eqn:Eh; [|intros [= <- <-]; by constructor].
    destruct (ie_ok E); [|intros [= <- <-]; by constructor]. intros [= <- <-].
    apply head_filter_Some in Eh as [Hx Hp]. cbn [snd] in Hp. destruct w as [q m]. cbn in Hp. subst q.
    rewrite (HE _) in Hx. apply elem_of_map_to_list in Hx. by eapply ic_del.
  - unfold i_close. destruct (i_open s) eqn:Eo; intros [= <- <-]; [by constructor|by constructor].
  - intros [= <- <-]. constructor.
Qed.

(** ** General invariant *)
Record iinv (tr : itrace) (s : ist) : Prop := {
  iv_closed : i_open s = false → i_m s = ∅ ∧ i_k s = ∅;
  iv_ino : ∀ a c i m m', i_k s !! a = Some (KW i m) → i_k s !! c = Some (KW i m') → a = c;
  iv_next : ∀ wd, is_Some (i_m s !! wd) → (wd < i_next s)%Z;
  iv_k : ∀ wd i m, i_k s !! wd = Some (KW i m) → ∃ p e, i_m s !! wd = Some (Wd p e) ∧ m = encode e;
  iv_m : ∀ wd p e, i_m s !! wd = Some (Wd p e) → known e ∧ ∃ E tr1 tr2, tr = tr1 ++ (E, IWatch p e, true) :: tr2;
}.
Lemma iinv_mono tr s x : iinv tr s → iinv (tr ++ [x]) s.
Proof.
  intros H. split; try apply H. intros wd p e Hm. destruct (iv_m _ _ H wd p e Hm) as (?&E&tr1&tr2&->).
  split; [done|]. exists E, tr1, (tr2 ++ [x]). by rewrite <-app_assoc.
Qed.
Lemma iinv_change tr s E o r s' : iinv tr s → ichange s o r (ie_ino E) s' → iinv (tr ++ [(E, o, r)]) s'.
Proof.
  intros H Hc. remember (ie_ino E) as ino eqn:Ei. destruct Hc as [o r ino Hn1 Hn2 Hn3 Hn4|o ino p e -> Ho|p e ino wd m s1 Hkn Hs1 H2|p e ino s1 Hkn Hs1 H2|p wd m ino Hwd|r ino Ho|i r ino].
  - by apply iinv_mono.
  - apply (iinv_mono _ _ (E, IWatch p e, false)) in H. destruct (iv_closed _ _ H) as [Hm Hk]; [done|]. split; cbn; try done.
    + intros wd [x Hx]. by rewrite Hm, lookup_empty in Hx.
    + intros wd q e' Hx. by rewrite Hm, lookup_empty in Hx.
  - assert (iinv (tr ++ [(E, IWatch p e, true)]) s1) as H1.
    { subst s1. destruct (i_open s) eqn:Eo; [by apply iinv_mono|]. destruct (iv_closed _ _ H Eo) as [Hm Hk]. rewrite Hm.
      split; cbn; try done; intros wd' [x Hx]; by rewrite lookup_empty in Hx. }
    destruct (iv_k _ _ H1 _ _ _ H2) as (p0&e0&Hm0&->). split; cbn.
    + intros Ho. apply (iv_closed _ _ H1) in Ho as [_ Hk]. by rewrite Hk, lookup_empty in H2.
    + intros a c i m1 m2. rewrite !lookup_insert_Some. intros [[<- [= Hi1 _]]|[Hna Ha]] [[<- [= Hi2 _]]|[Hnc Hcc]]; [done| | |].
      * exfalso. apply Hnc. subst i. by eapply (iv_ino _ _ H1).
      * exfalso. apply Hna. subst i. by eapply (iv_ino _ _ H1).
      * by eapply (iv_ino _ _ H1).
    + intros wd' Hs. apply (iv_next _ _ H1). destruct (decide (wd' = wd)) as [->|]; [eauto|]. by rewrite lookup_insert_ne in Hs.
    + intros wd' i m'. rewrite lookup_insert_Some. intros [[<- [= <- <-]]|[Hne Hk]].
      * exists p, e. by rewrite lookup_insert.
      * rewrite lookup_insert_ne by done. by eapply (iv_k _ _ H1).
    + intros wd' q e'. rewrite lookup_insert_Some. intros [[<- [= <- <-]]|[Hne Hk]]; [|by eapply (iv_m _ _ H1)].
      split; [done|]. by exists E, tr, [].
  - assert (iinv (tr ++ [(E, IWatch p e, true)]) s1) as H1.
    { subst s1. destruct (i_open s) eqn:Eo; [by apply iinv_mono|]. destruct (iv_closed _ _ H Eo) as [Hm Hk]. rewrite Hm.
      split; cbn; try done; intros wd' [x Hx]; by rewrite lookup_empty in Hx. }
    split; cbn.
    + intros Ho. exfalso. subst s1. destruct (i_open s) eqn:Eo; cbn in Ho; congruence.
    + intros a c i m1 m2. rewrite !lookup_insert_Some. intros [[<- [= Hi1 _]]|[Hna Ha]] [[<- [= Hi2 _]]|[Hnc Hcc]]; [done| | |].
      * subst i. by apply H2 in Hcc.
      * subst i. by apply H2 in Ha.
      * by eapply (iv_ino _ _ H1).
    + intros wd' Hs. destruct (decide (wd' = i_next s1)) as [->|]; [lia|]. rewrite lookup_insert_ne in Hs by done.
      apply (iv_next _ _ H1) in Hs. lia.
    + intros wd' i m'. rewrite lookup_insert_Some. intros [[<- [= <- <-]]|[Hne Hk]].
      * exists p, e. by rewrite lookup_insert.
      * rewrite lookup_insert_ne by done. by eapply (iv_k _ _ H1).
    + intros wd' q e'. rewrite lookup_insert_Some. intros [[<- [= <- <-]]|[Hne Hk]]; [|by eapply (iv_m _ _ H1)].
      split; [done|]. by exists E, tr, [].
  - apply (iinv_mono _ _ (E, IUnwatch p, true)) in H. split; cbn.
    + intros Ho. apply (iv_closed _ _ H) in Ho as [-> ->]. by rewrite !delete_empty.
    + intros a c i m1 m2 [_ Ha]%lookup_delete_Some [_ Hcc]%lookup_delete_Some. by eapply (iv_ino _ _ H).
    + intros wd' [x Hx]. apply lookup_delete_Some in Hx as [_ Hx]. apply (iv_next _ _ H). eauto.
    + intros wd' i m' [Hne Hk]%lookup_delete_Some. rewrite lookup_delete_ne by done. by eapply (iv_k _ _ H).
    + intros wd' q e' [_ Hk]%lookup_delete_Some. by eapply (iv_m _ _ H).
  - split; cbn; try done; intros wd' [x Hx]; by rewrite lookup_empty in Hx.
  - apply (iinv_mono _ _ (E, IGone i, r)) in H. unfold k_gone. split; cbn.
    + intros Ho. apply (iv_closed _ _ H) in Ho as [-> ->]. split; [done|]. by rewrite map_filter_empty.
    + intros a c i' m1 m2 [Ha _]%map_filter_lookup_Some [Hcc _]%map_filter_lookup_Some. by eapply (iv_ino _ _ H).
    + apply (iv_next _ _ H).
    + intros wd' i' m' [Hk _]%map_filter_lookup_Some. by eapply (iv_k _ _ H).
    + apply (iv_m _ _ H).
Qed.
Lemma iexec_inv tr s : iexec tr s → iinv tr s.
Proof.
  induction 1 as [|tr s E o s' r H IH HE Hs].
  - split; cbn; try done; intros wd [x Hx]; by rewrite lookup_empty in Hx.
  - by eapply iinv_change, istep_change.
Qed.

(** ** In orderly histories the table is exactly what was asked for *)
Record oinv (tr : itrace) (s : ist) : Prop := {
  ov_file : ∀ wd p e, i_m s !! wd = Some (Wd p e) →
    ∃ i l, ifile tr !! p = Some (i, l) ∧ i_k s !! wd = if l : bool then Some (KW i (encode e)) else None;
  ov_tab : ∀ p e, itab tr !! p = Some e ↔ ∃ wd, i_m s !! wd = Some (Wd p e);
  ov_dom : ∀ p, is_Some (ifile tr !! p) → is_Some (itab tr !! p);
  ov_uniq : ∀ wd wd' p e e', i_m s !! wd = Some (Wd p e) → i_m s !! wd' = Some (Wd p e') → wd = wd';
}.
Lemma itab_snoc tr x : itab (tr ++ [x]) = tab_step (itab tr) x.
Proof. unfold itab. by rewrite foldl_app. Qed.
Lemma ifile_snoc tr x : ifile (tr ++ [x]) = file_step (ifile tr) x.
Proof. unfold ifile. by rewrite foldl_app. Qed.
Lemma orderly_snoc tr x : orderly (tr ++ [x]) → orderly tr.
Proof. intros H tr1 E p e i tr2 -> Hi. apply (H tr1 E p e i (tr2 ++ [x])); [by rewrite <-app_assoc|done]. Qed.
(** Nothing is recorded. *)
Lemma oinv_empty tr s : i_m s = ∅ → itab tr = ∅ → ifile tr = ∅ → oinv tr s.
Proof.
  intros Hm Ht Hf. split; rewrite ?Hm, ?Ht, ?Hf.
  - intros *. by rewrite lookup_empty.
  - intros p e. rewrite lookup_empty. split; [done|]. intros [wd Hx]. by rewrite lookup_empty in Hx.
  - intros p. rewrite lookup_empty. by intros [? ?].
  - intros *. by rewrite lookup_empty.
Qed.
Lemma oinv_empty_inv tr s : oinv tr s → i_m s = ∅ → itab tr = ∅ ∧ ifile tr = ∅.
Proof.
  intros H Hm. assert (itab tr = ∅) as Ht.
  { apply map_eq. intros p. rewrite lookup_empty. destruct (itab tr !! p) as [e|] eqn:E; [|done].
    apply (ov_tab _ _ H) in E as [wd Hw]. by rewrite Hm, lookup_empty in Hw. }
  split; [done|]. apply map_eq. intros p. rewrite lookup_empty. destruct (ifile tr !! p) as [x|] eqn:E; [|done].
  destruct (ov_dom _ _ H p) as [y Hy]; [eauto|]. by rewrite Ht, lookup_empty in Hy.
Qed.
Lemma iexec_orderly tr s : iexec tr s → orderly tr → oinv tr s.
Proof.
  induction 1 as [|tr s E o s' r H IH HE Hs]; intros Hor; [by apply oinv_empty|].
  pose proof (orderly_snoc _ _ Hor) as Hor'. specialize (IH Hor'). apply iexec_inv in H.
  apply istep_change in Hs; [|done]. remember (ie_ino E) as ino eqn:Ei.
  destruct Hs as [o r ino Hn1 Hn2 Hn3 Hn4|o ino p e -> Ho|p e ino wd m s1 Hk Hs1 Hwd|p e ino s1 Hk Hs1 Hwd|p wd m ino Hwd|r ino Ho|i r ino].
  - destruct o as [q e'|q| |i].
    + destruct r; [by destruct (Hn1 q e')|]. split; rewrite ?itab_snoc, ?ifile_snoc; apply IH.
    + destruct r; [by destruct (Hn2 q)|]. split; rewrite ?itab_snoc, ?ifile_snoc; apply IH.
    + apply oinv_empty; [by apply (iv_closed _ _ H), Hn3|by rewrite itab_snoc|by rewrite ifile_snoc].
    + by destruct (Hn4 i).
  - destruct (iv_closed _ _ H Ho) as [Hm _]. destruct (oinv_empty_inv _ _ IH Hm) as [Ht Hf].
    apply oinv_empty; [done|by rewrite itab_snoc|by rewrite ifile_snoc].
  - destruct (Hor tr E p e ino [] eq_refl (eq_sym Ei)) as [Hsame Hother].
    assert (i_m s1 = i_m s) as Em by (subst s1; by destruct (i_open s)).
    assert (i_k s1 = i_k s ∧ i_open s = true) as [Ek Eo].
    { destruct (i_open s) eqn:Eo; [by subst s1|]. subst s1. cbn in Hwd. by rewrite lookup_empty in Hwd. }
    rewrite Ek in Hwd. destruct (iv_k _ _ H _ _ _ Hwd) as (p0&e0&Hm0&->).
    destruct (ov_file _ _ IH _ _ _ Hm0) as (i0&l0&Hf0&Hk0). rewrite Hwd in Hk0. destruct l0; [|done]. injection Hk0 as <-.
    destruct (decide (p0 = p)) as [->|Hpp]; [|by apply Hother in Hf0].
    split; cbn [i_m i_k]; rewrite ?Em, ?Ek, ?itab_snoc, ?ifile_snoc; cbn [tab_step file_step]; rewrite <-?Ei.
    + intros wd' q e'. rewrite lookup_insert_Some. intros [[<- [= <- <-]]|[Hne Hq]].
      { exists ino, true. by rewrite !lookup_insert. }
      assert (q ≠ p) as Hqp by (intros ->; apply Hne; by eapply (ov_uniq _ _ IH)).
      rewrite !lookup_insert_ne by done. by apply (ov_file _ _ IH).
    + intros q e'. destruct (decide (q = p)) as [->|Hqp].
      * rewrite lookup_insert. split; [intros [= <-]; exists wd; by rewrite lookup_insert|].
        intros [wd' Hw]. rewrite lookup_insert_Some in Hw. destruct Hw as [[_ [= <-]]|[Hne Hw]]; [done|].
        exfalso. apply Hne. by eapply (ov_uniq _ _ IH).
      * rewrite lookup_insert_ne by done. rewrite (ov_tab _ _ IH). split; intros [wd' Hw]; exists wd'.
        -- rewrite lookup_insert_ne; [done|]. intros <-. congruence.
        -- rewrite lookup_insert_Some in Hw. destruct Hw as [[_ [= <- _]]|[_ Hw]]; done.
    + intros q. destruct (decide (q = p)) as [->|Hqp]; [rewrite !lookup_insert; eauto|].
      rewrite !lookup_insert_ne by done. apply (ov_dom _ _ IH).
    + intros w1 w2 q x1 x2. rewrite !lookup_insert_Some. intros [[<- H1]|[Hn1 H1]] [[<- H2]|[Hn2 H2]]; [done|injection H1 as <- <-|injection H2 as <- <-|].
      * by eapply (ov_uniq _ _ IH).
      * by eapply (ov_uniq _ _ IH).
      * by eapply (ov_uniq _ _ IH).
  - destruct (Hor tr E p e ino [] eq_refl (eq_sym Ei)) as [Hsame Hother].
    assert (i_m s1 = i_m s) as Em by (subst s1; by destruct (i_open s)).
    assert (∀ wd', is_Some (i_m s !! wd') → i_open s = true) as Hopen.
    { intros wd' [x Hm]. destruct (i_open s) eqn:Eo; [done|]. destruct (iv_closed _ _ H Eo) as [Hz _]. by rewrite Hz, lookup_empty in Hm. }
    assert (∀ e' wd', i_m s !! wd' ≠ Some (Wd p e')) as Hno.
    { intros e' wd' Hm. rewrite (Hopen wd') in Hs1 by eauto. subst s1.
      destruct (ov_file _ _ IH _ _ _ Hm) as (i0&l0&Hf0&Hk0). apply Hsame in Hf0. injection Hf0 as -> ->. by apply Hwd in Hk0. }
    assert (∀ wd', is_Some (i_m s !! wd') → wd' ≠ i_next s1 ∧ i_k s1 !! wd' = i_k s !! wd') as Hnx.
    { intros wd' Hm. rewrite (Hopen wd') in Hs1 by done. subst s1.
      apply (iv_next _ _ H) in Hm. split; [lia|done]. }
    split; cbn [i_m i_k]; rewrite ?Em, ?itab_snoc, ?ifile_snoc; cbn [tab_step file_step]; rewrite <-?Ei.
    + intros wd' q e'. rewrite lookup_insert_Some. intros [[<- [= <- <-]]|[Hne Hq]].
      { exists ino, true. by rewrite !lookup_insert. }
      assert (q ≠ p) as Hqp by (intros ->; by apply Hno in Hq).
      rewrite !lookup_insert_ne by done. destruct (Hnx wd') as [_ ->]; [eauto|]. by apply (ov_file _ _ IH).
    + intros q e'. destruct (decide (q = p)) as [->|Hqp].
      * rewrite lookup_insert. split; [intros [= <-]; exists (i_next s1); by rewrite lookup_insert|].
        intros [wd' Hw]. rewrite lookup_insert_Some in Hw. destruct Hw as [[_ [= <-]]|[Hne Hw]]; [done|]. by apply Hno in Hw.
      * rewrite lookup_insert_ne by done. rewrite (ov_tab _ _ IH). split; intros [wd' Hw]; exists wd'.
        -- rewrite lookup_insert_ne; [done|]. intros <-. destruct (Hnx (i_next s1)); eauto.
        -- rewrite lookup_insert_Some in Hw. destruct Hw as [[_ [= <- _]]|[_ Hw]]; done.
    + intros q. destruct (decide (q = p)) as [->|Hqp]; [rewrite !lookup_insert; eauto|].
      rewrite !lookup_insert_ne by done. apply (ov_dom _ _ IH).
    + intros w1 w2 q x1 x2. rewrite !lookup_insert_Some. intros [[<- H1]|[Hn1 H1]] [[<- H2]|[Hn2 H2]]; [done|injection H1 as <- <-|injection H2 as <- <-|].
      * by apply Hno in H2.
      * by apply Hno in H1.
      * by eapply (ov_uniq _ _ IH).
  - split; cbn [i_m i_k]; rewrite ?itab_snoc, ?ifile_snoc; cbn [tab_step file_step].
    + intros wd' q e' [Hne Hq]%lookup_delete_Some.
      assert (q ≠ p) as Hqp by (intros ->; apply Hne; by eapply (ov_uniq _ _ IH)).
      rewrite !lookup_delete_ne by done. by apply (ov_file _ _ IH).
    + intros q e'. destruct (decide (q = p)) as [->|Hqp].
      * rewrite lookup_delete. split; [done|]. intros [wd' [Hne Hw]%lookup_delete_Some].
        exfalso. apply Hne. by eapply (ov_uniq _ _ IH).
      * rewrite lookup_delete_ne by done. rewrite (ov_tab _ _ IH). split; intros [wd' Hw]; exists wd'.
        -- rewrite lookup_delete_ne; [done|]. intros <-. congruence.
        -- by apply lookup_delete_Some in Hw as [_ ?].
    + intros q. destruct (decide (q = p)) as [->|Hqp]; [rewrite !lookup_delete; by intros [? ?]|].
      rewrite !lookup_delete_ne by done. apply (ov_dom _ _ IH).
    + intros w1 w2 q x1 x2 [_ H1]%lookup_delete_Some [_ H2]%lookup_delete_Some. by eapply (ov_uniq _ _ IH).
  - apply oinv_empty; [done|by rewrite itab_snoc|by rewrite ifile_snoc].
  - unfold k_gone. split; cbn [i_m i_k]; rewrite ?itab_snoc, ?ifile_snoc; cbn [tab_step file_step]; try apply IH.
    + intros wd p e Hm. destruct (ov_file _ _ IH _ _ _ Hm) as (i0&l0&Hf0&Hk0).
      exists i0, (l0 && bool_decide (i0 ≠ i)). rewrite lookup_fmap, Hf0. split; [done|]. destruct l0; cbn.
      * destruct (bool_decide_reflect (i0 ≠ i)) as [Hne|Hne].
        -- by apply map_filter_lookup_Some.
        -- apply map_filter_lookup_None. right. intros x Hx Hi. rewrite Hk0 in Hx. injection Hx as <-. cbn in Hi. done.
      * apply map_filter_lookup_None. by left.
    + intros p. rewrite lookup_fmap, fmap_is_Some. apply (ov_dom _ _ IH).
Qed.

(** ** Joining names *)
Lemma fjoin_topath tp c : Forall proper tp → proper c → fjoin (topath tp) c = topath (tp ++ [c]).
Proof.
  intros Ht Hc. unfold fjoin. destruct c as [|c0 c'] eqn:Ec; [by destruct Hc|]. rewrite <-Ec in *. clear Ec.
  destruct tp as [|x tp].
  - change (topath []) with [slash]. cbn [app].
    replace (slash :: slash :: c) with (slash :: render slash [c]) by (cbn; by rewrite app_nil_r).
    unfold clean. cbn [isabs]. rewrite Ascii.eqb_refl. change (slash :: render slash [c]) with ([] ++ slash :: render slash [c]).
    rewrite splits_app, splits_render by (by constructor). cbn [splits app].
    unfold clean_comps. cbn [foldl]. change (clean_step true [] []) with (@nil str). rewrite clean_step_proper by done.
    cbn [reverse]. change (reverse [c]) with [c]. cbn [joins]. unfold topath. cbn. by rewrite app_nil_r.
  - assert (topath (x :: tp) ++ slash :: c = topath ((x :: tp) ++ [c])) as Heq.
    { unfold topath. change ((x :: tp) ++ [c]) with (x :: (tp ++ [c])). cbn [app]. rewrite <-render_snoc. done. }
    assert (Forall proper ((x :: tp) ++ [c])) as Hall by (apply Forall_app; split; [done|by constructor]).
    destruct (topath (x :: tp)) eqn:Et; [by unfold topath in Et|].
    rewrite Heq. destruct c; [by destruct Hc|]. by apply clean_topath.
Qed.

(** ** What is sent *)
Lemma elem_of_sent m rs e : e ∈ sent m rs ↔ ∃ r, r ∈ rs ∧ ((transform1 m r).1 = Some e ∨ (transform1 m r).2 = Some e).
Proof.
  unfold sent, transform. rewrite elem_of_list_omap. split.
  - intros ([x|]&Hin&[= ->]). apply elem_of_app in Hin as [Hin|Hin]; apply elem_of_list_fmap in Hin as (y&Hy&Hin);
      apply elem_of_list_fmap in Hin as (r&->&Hr); exists r; rewrite <-Hy; auto.
  - intros (r&Hr&[He|He]); exists (Some e); (split; [|done]); apply elem_of_app; [left|right];
      apply elem_of_list_fmap; exists (transform1 m r); (split; [done|]); apply elem_of_list_fmap; eauto.
Qed.
Lemma transform1_Some m r w :
  r_mask r .& (IN_IGNORED .| IN_Q_OVERFLOW) = 0 → m !! r_wd r = Some w → r_mask r .& encode (w_mask w) ≠ 0 →
  let path := match r_name r with [] => w_path w | nm => fjoin (w_path w) nm end in
  let d := decode (w_mask w) (r_mask r) in
  transform1 m r = (if d.1 =? 0 then None else Some (IE (r_wd r) (r_mask r) (r_cookie r) path d.1),
                    IE (r_wd r) (r_mask r) (r_cookie r) path <$> d.2).
Proof.
  intros H1 H2 H3. cbn zeta. unfold transform1. rewrite H1, H2. cbn [N.eqb negb].
  apply N.eqb_neq in H3. rewrite H3. by destruct (decode _ _).
Qed.
Lemma transform1_cases m r :
  transform1 m r = (None, None) ∨
  ∃ w, r_mask r .& (IN_IGNORED .| IN_Q_OVERFLOW) = 0 ∧ m !! r_wd r = Some w ∧ r_mask r .& encode (w_mask w) ≠ 0.
Proof.
  unfold transform1. destruct (N.eqb_spec (r_mask r .& (IN_IGNORED .| IN_Q_OVERFLOW)) 0) as [H1|H1]; cbn [negb]; [|by left].
  destruct (m !! r_wd r) as [w|]; [|by left].
  destruct (N.eqb_spec (r_mask r .& encode (w_mask w)) 0) as [H2|H2]; [by left|]. right. eauto.
Qed.
