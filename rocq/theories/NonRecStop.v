(** * NonRecStop: stopping everyone empties the tree *)
From Verif Require Import Base Event Watchpoint WatchpointFacts Paths PathsFacts Loop LoopFacts
  Node NodeFacts SpecTree WalkFacts RootFacts NonRec NonRecWp SpecNonRec SpecNonRecOS SpecOS NonRecFacts NonRecOps NonRecReg NonRecStep.
Local Open Scope N_scope.

Section stopall.
Context (P : platform) (HP : platform_ok P) (sepc : ascii).
Notation render := (render sepc).
Notation nenv := (nenv P sepc).
Notation wp_ok := (wp_ok P).
Notation tinv := (tinv P sepc).
Notation recx := (recx P).
Notation nop_ok := (nop_ok P sepc).
Notation nstep := (nstep sepc).
Notation nexec := (nexec P sepc).

Lemma outstanding_snoc tr o r n :
  outstanding (tr ++ [(o, r)]) n ↔
    match o with
    | NWatch _ _ m _ => n = m ∨ outstanding tr n
    | NStop m => n ≠ m ∧ outstanding tr n
    | NEvent _ _ => outstanding tr n
    end.
Proof.
  split.
  - intros (tr1&p&isrec&e&r'&tr2&Heq&Hno).
    apply app_split_last in Heq as [(->&->&[= -> ->])|(b'&->&->)]; [by left|].
    assert (outstanding (tr1 ++ (NWatch p isrec n e, r') :: b') n) as Ho.
    { exists tr1, p, isrec, e, r', b'. split; [done|]. intros r'' Hin. apply (Hno r''). set_solver. }
    destruct o; [by right| |done]. split; [|done]. intros ->. apply (Hno r). set_solver.
  - assert (∀ n, (∀ r', (o, r) ≠ (NStop n, r')) → outstanding tr n → outstanding (tr ++ [(o, r)]) n) as Hkeep.
    { intros m Hne (tr1&p&isrec&e&r'&tr2&->&Hno). exists tr1, p, isrec, e, r', (tr2 ++ [(o, r)]).
      split; [by rewrite <-app_assoc|]. intros r'' [Hin|Hin%elem_of_list_singleton]%elem_of_app; [by eapply Hno|].
      by apply (Hne r''). }
    destruct o as [p isrec m e|m|ev p].
    + intros [->|Ho]; [|by apply Hkeep]. exists tr, p, isrec, e, r, []. split; [done|]. set_solver.
    + intros [Hne Ho]. apply Hkeep; [|done]. intros r' [= ->]. done.
    + intros Ho. by apply Hkeep.
Qed.

(** Entries of the users and of the internal channel, before and after. *)
Definition users (s : st) (p : path) (n : positive) : Prop := is_Some (wp_at (st_tree s) p !! KUser n).
Definition internals (s : st) (p : path) : Prop := is_Some (wp_at (st_tree s) p !! KRec).

Lemma grow_users x s s' p n : grow x (st_tree s) (st_tree s') → users s' p n → users s p n.
Proof. intros H. unfold users. by rewrite (gr_user _ _ _ H). Qed.

Lemma watch_users E s p isrec n e s' r :
  nenv E → nop_ok (NWatch p isrec n e) → tinv (st_tree s) → nstep E s (NWatch p isrec n e) = (s', r) →
  ∀ q m, users s' q m → (q = p ∧ m = n) ∨ users s q m.
Proof.
  intros HE (Hu&H32&Hue) Ht Hs q m. simpl in Hs. unfold nr_Watch in Hs.
  assert (disj_ev e (omit P)) as Hom by (clear - Hue; unfold user_ev, internal in *; bits).
  destruct (nr_add_spec P sepc E (st_tree s) p HE Ht Hu) as (t1&Hadd&Ht1&Hp1&Hw1&Hl1). rewrite Hadd in Hs.
  destruct (decide (q = p ∧ m = n)) as [[-> ->]|Hmn]; [by left|]. intros Hus. right.
  destruct isrec.
  - rewrite (ne_plat _ _ _ HE) in Hs.
    destruct (watchrec_spec P HP sepc E (with_tree s t1) p n (e .| recursive P) s' r) as (H1&H2&H3); try done.
    + apply u32_lor; [done|by apply u32_recursive].
    + clear. bits.
    + pose proof (d_re_om P HP) as Hd. clear - Hd Hom. bits.
    + unfold users. rewrite <-Hw1. change (users (with_tree s t1) q m).
      destruct H3 as [(Hr&_&Hg&_)|(->&s1&wp'&->&Ht2&Hh2&Hg&Hrg&_)]; [by eapply grow_users|].
      eapply grow_users; [exact Hg|]. unfold users in *. cbn [st_tree with_tree] in Hus. rewrite wp_at_set_wp in Hus.
      destruct (decide (q = p ∧ is_Some (st_tree s1 !! p))) as [[-> _]|_]; [|done].
      rewrite (rg_other _ _ _ _ _ Hrg) in Hus; [done|done|done|naive_solver].
  - unfold users in *.
    destruct (nr_watch_cases P sepc E (with_tree s t1) p n e s' r) as [(->&Hok&->)|(->&c&wp'&Hc&HW&->&Hok&Hoth&_)]; try done.
    + apply HE.
    + rewrite upd_tree in Hus. cbn [st_tree with_tree] in *. rewrite wp_at_set_wp in Hus.
      destruct (decide (q = p ∧ is_Some (t1 !! p))) as [[-> _]|_]; [|by rewrite Hw1 in Hus].
      rewrite wadd_get in Hus by done. rewrite bool_decide_false in Hus by naive_solver. by rewrite Hw1 in Hus.
    + cbn [st_tree with_tree] in *. rewrite wp_at_set_wp in Hus.
      destruct (decide (q = p ∧ is_Some (t1 !! p))) as [[-> _]|_]; [|by rewrite Hw1 in Hus].
      rewrite Hoth in Hus; [by rewrite Hw1 in Hus|done|naive_solver].
Qed.

Lemma stop_users E s n q m :
  nenv E → tinv (st_tree s) → users (nr_Stop E s (KUser n)) q m ↔ m ≠ n ∧ users s q m.
Proof.
  intros HE Ht. destruct (nr_Stop_spec P HP sepc E n s HE Ht) as (H1&H2&H3&H4&H5). unfold users. rewrite H5.
  destruct (wdelmin_spec P HP (minof [] (st_tree (nr_Stop E s (KUser n))) q) (wp_at (st_tree s) q) n) as (_&Hk&_).
  - by eapply tinv_wp_at.
  - by eapply minof_ok.
  - unfold stopf. rewrite Hk by done. case_bool_decide as Hb.
    + injection Hb as ->. split; [by intros []|]. naive_solver.
    + split; [|naive_solver]. intros Hx. split; [congruence|done].
Qed.
(** With no users left on a path and above, Stop removes its internal entry. *)
Lemma stop_internals_at E s n q :
  nenv E → tinv (st_tree s) → (∀ x m, x `prefix_of` q → ¬ users (nr_Stop E s (KUser n)) x m) →
  ¬ internals (nr_Stop E s (KUser n)) q.
Proof.
  intros HE Ht. destruct (nr_Stop_spec P HP sepc E n s HE Ht) as (H1&H2&H3&H4&H5).
  set (s' := nr_Stop E s (KUser n)) in *.
  assert (∀ q, (∀ m, ¬ users s' q m) → minof [] (st_tree s') q = 0 → ¬ internals s' q) as Hone.
  { intros x Hno Hm. unfold internals. rewrite H5.
    destruct (wdelmin_spec P HP (minof [] (st_tree s') x) (wp_at (st_tree s) x) n) as (_&_&Hr&_).
    - by eapply tinv_wp_at.
    - by eapply minof_ok.
    - unfold stopf. rewrite Hr, Hm. clear Hr. destruct (wp_at (st_tree s) x !! KRec) as [old|]; [|by intros []].
      assert (rest P 0 (wp_at (st_tree s) x) (KUser n) = 0) as ->.
      { unfold rest. assert (others (delete (KUser n) (delete KRec (wp_at (st_tree s) x))) = 0) as ->; [|done].
        apply has_ext. intros i. rewrite has_others. split; [|intros Hi; by apply has_0 in Hi].
        intros (k&e&Hk&Hl&_). apply lookup_delete_Some in Hl as [Hk1 Hl]. apply lookup_delete_Some in Hl as [Hk2 Hl].
        destruct k as [| |m]; [done|done|]. exfalso. apply (Hno m). apply stop_users; [done|done|].
        split; [congruence|]. unfold users. by rewrite Hl. }
      rewrite N.land_0_r, bool_decide_true by done. by intros []. }
  induction q as [|k q IH] using rev_ind; intros Hno.
  - apply Hone; [intros m; by apply Hno|]. unfold minof. by rewrite decide_True.
  - apply Hone; [intros m; by apply Hno|]. unfold minof. rewrite decide_False by (by destruct q). rewrite removelast_snoc.
    assert (¬ internals s' q) as IH'.
    { apply IH. intros x m Hx. apply Hno. by apply prefix_app_r. }
    unfold internals in IH'. apply wget_None. destruct (wp_at (st_tree s') q !! KRec); [destruct IH'; eauto|done].
Qed.
Lemma stop_internals E s n :
  nenv E → tinv (st_tree s) → (∀ q m, ¬ users (nr_Stop E s (KUser n)) q m) →
  ∀ q, ¬ internals (nr_Stop E s (KUser n)) q.
Proof. intros HE Ht Hno q. by apply stop_internals_at. Qed.
(** A watchpoint without users and internal entry is empty. *)
Lemma empty_wp wp : wp_ok wp → (∀ k, k ≠ KNil → wp !! k = None) → wp = ∅.
Proof.
  intros Hok Hn. assert (delete KNil wp = ∅) as Hd.
  { apply map_eq. intros k. rewrite lookup_empty. destruct (decide (k = KNil)) as [->|Hk]; [by rewrite lookup_delete|].
    rewrite lookup_delete_ne by done. by apply Hn. }
  pose proof (wo_agg _ _ Hok) as Hag. unfold agg_ok in Hag. rewrite Hd, bool_decide_true in Hag by done.
  apply map_eq. intros k. rewrite lookup_empty. destruct (decide (k = KNil)) as [->|Hk]; [done|by apply Hn].
Qed.

Lemma event_users E s ev p :
  nenv E → gpath sepc p → tinv (st_tree s) →
  let s' := nr_internal E s (EI ev (render p) (Some true) fTypeDirectory) in
  (∀ q m, users s' q m → users s q m) ∧ ((∀ q, ¬ internals s q) → ∀ q, ¬ internals s' q).
Proof.
  intros HE Hg Ht. cbn zeta. destruct (decide (ev = Remove P)) as [->|Hev].
  - pose proof (gpath_upath P HP sepc p Hg) as Hu.
    destruct (internal_remove_spec P HP sepc E s p HE Ht Hg) as [[-> Hn]|(s1&Hp&Hw&Htr&Hpn&->)]; [done|].
    unfold users, internals. cbn [st_tree with_tree]. split.
    + intros q m. rewrite (wp_at_del P sepc) by done. destruct (decide _); [by intros []|done].
    + intros Hi q. rewrite (wp_at_del P sepc) by done. destruct (decide _); [by intros []|apply Hi].
  - destruct (internal_create_cases P HP sepc E s ev p HE Ht Hg Hev)
      as [[-> _]|(q&t1&e&r&Hq&Hqe&_&Ht1&Hp1&Hw1&_&_&Ha)]; [done|].
    set (s' := nr_internal E s (EI ev (render p) (Some true) fTypeDirectory)) in *.
    split.
    + intros x m Hx. assert (wp_ok (wp_at (st_tree s) q)) as Hwq by (by eapply tinv_wp_at).
      destruct (adddir_grow P HP sepc E e (with_tree s t1) p s' r) as (H1&H2&H3); try done.
      * by eapply wo_u32.
      * pose proof (wo_rec _ _ Hwq _ Hqe) as Hy. unfold recbits in Hy. clear - Hy. bits.
      * apply (grow_users (recx e) (with_tree s t1) s') in Hx; [|done]. unfold users in *.
        cbn [st_tree with_tree] in Hx. by rewrite Hw1 in Hx.
    + intros Hi. destruct (Hi q). unfold internals. by rewrite Hqe.
Qed.

Lemma nexec_outstanding tr s : nexec tr s →
  (∀ p n, users s p n → outstanding tr n) ∧ (all_stopped tr → ∀ p, ¬ internals s p).
Proof.
  induction 1 as [|tr s E o s' r Hx [IH1 IH2] HE Ho Hs].
  - assert (∀ p, wp_at (st_tree init_st) p = ∅) as Hw.
    { intros p. unfold wp_at. simpl. destruct (decide (p = [])) as [->|Hp].
      + by rewrite lookup_singleton. + by rewrite lookup_singleton_ne. }
    unfold users, internals. split; [intros p n|intros _ p]; rewrite Hw, lookup_empty; by intros [].
  - destruct (nexec_inv P HP sepc _ _ Hx) as [Ht _]. destruct o as [p isrec n e|n|ev p].
    + split.
      * intros q m Hu. apply outstanding_snoc.
        destruct (watch_users E s p isrec n e s' r HE Ho Ht Hs q m Hu) as [[_ ->]|]; [by left|right; eauto].
      * intros Ha. exfalso. apply (Ha n). apply outstanding_snoc. by left.
    + simpl in Hs. injection Hs as <- <-.
      assert (∀ q m, users (nr_Stop E s (KUser n)) q m → outstanding (tr ++ [(NStop n, ROk)]) m) as Hus.
      { intros q m [Hm Hu]%stop_users; [|done..]. apply outstanding_snoc. split; [done|eauto]. }
      split; [done|]. intros Ha. apply stop_internals; [done..|]. intros q m Hu. by eapply Ha, Hus.
    + simpl in Hs. injection Hs as <- <-.
      destruct (event_users E s ev p HE Ho Ht) as [H1 H2]. split.
      * intros q m Hu. apply outstanding_snoc. eauto.
      * intros Ha. apply H2. apply IH2. intros n Hn. apply (Ha n). by apply outstanding_snoc.
Qed.
Lemma nexec_all_stopped tr s : nexec tr s → all_stopped tr → ∀ p, wp_at (st_tree s) p = ∅.
Proof.
  intros Hx Ha p. destruct (nexec_outstanding tr s Hx) as [H1 H2].
  destruct (nexec_inv P HP sepc _ _ Hx) as [Ht _].
  apply empty_wp; [by eapply tinv_wp_at|]. intros k Hk. destruct (wp_at (st_tree s) p !! k) as [x|] eqn:Ek; [|done].
  exfalso. destruct k as [| |m]; [done| |].
  - apply (H2 Ha p). unfold internals. by rewrite Ek.
  - apply (Ha m). apply (H1 p). unfold users. by rewrite Ek.
Qed.

(** ** Per path *)
Notation holds := (holds P).
Lemma holds_snoc tr o r p n :
  holds tr p n → o ≠ NStop n → (∀ q, o = NEvent (Remove P) q → ¬ q `prefix_of` p) → holds (tr ++ [(o, r)]) p n.
Proof.
  intros (tr1&b&e&r0&tr2&->&H1&H2) H3 H4. exists tr1, b, e, r0, (tr2 ++ [(o, r)]).
  split_and!; [by rewrite <-app_assoc| |].
  - intros r' [Hin|Hin%elem_of_list_singleton]%elem_of_app; [by eapply H1|]. injection Hin as Heq _. by apply H3.
  - intros q r' [Hin|Hin%elem_of_list_singleton]%elem_of_app; [by eapply H2|]. injection Hin as Heq _. by apply H4.
Qed.
Lemma event_users_at E s p q m :
  nenv E → gpath sepc p → tinv (st_tree s) →
  users (nr_internal E s (EI (Remove P) (render p) (Some true) fTypeDirectory)) q m → ¬ p `prefix_of` q.
Proof.
  intros HE Hg Ht Hus Hpq. pose proof (gpath_upath P HP sepc p Hg) as Hu.
  destruct (internal_remove_spec P HP sepc E s p HE Ht Hg) as [[Heq Hn]|(s1&Hp&Hw&Htr&Hpn&Heq)]; rewrite Heq in Hus; unfold users in Hus.
  - unfold wp_at in Hus. destruct (st_tree s !! q) eqn:Eq; [|by destruct Hus].
    destruct (closed_prefix (st_tree s) p q (tinv_closed _ _ _ Ht) Hpq); [eauto|congruence].
  - cbn [st_tree with_tree] in Hus. rewrite (wp_at_del P sepc) in Hus by done. rewrite decide_True in Hus by done. by destruct Hus.
Qed.
Lemma nexec_holds tr s p n : nexec tr s → users s p n → holds tr p n.
Proof.
  intros Hx. revert p n. induction Hx as [|tr s E o s' r Hx IH HE Ho Hs]; intros p n Hus.
  { unfold users, wp_at in Hus. destruct (st_tree init_st !! p) as [nd|] eqn:Eq; [|by destruct Hus].
    simpl in Eq. apply lookup_singleton_Some in Eq as [<- <-]. by destruct Hus. }
  destruct (nexec_inv P HP sepc _ _ Hx) as [Ht _].
  destruct o as [q isrec m e|m|ev q].
  - destruct (watch_users E s q isrec m e s' r HE Ho Ht Hs p n Hus) as [[-> ->]|Hus'].
    + exists tr, isrec, e, r, []. split_and!; [done|set_solver|set_solver].
    + apply holds_snoc; [by apply IH|done|done].
  - simpl in Hs. injection Hs as <- <-. apply stop_users in Hus as [Hne Hus]; [|done..].
    apply holds_snoc; [by apply IH|congruence|done].
  - simpl in Hs. injection Hs as <- <-. destruct (event_users E s ev q HE Ho Ht) as [H1 _].
    apply holds_snoc; [by apply IH, H1|done|]. intros q' [= -> <-]. by eapply event_users_at.
Qed.
(** Stop empties every path on which and above which only the stopped channel
    holds something. *)
Lemma nexec_stop_alone tr s E n p :
  nexec tr s → nenv E → (∀ q m, q `prefix_of` p → holds tr q m → m = n) →
  wp_at (st_tree (nr_Stop E s (KUser n))) p = ∅.
Proof.
  intros Hx HE Hno. destruct (nexec_inv P HP sepc _ _ Hx) as [Ht _].
  destruct (nr_Stop_spec P HP sepc E n s HE Ht) as (Ht'&_).
  assert (∀ q m, q `prefix_of` p → ¬ users (nr_Stop E s (KUser n)) q m) as Hnu.
  { intros q m Hq [Hne Hus]%stop_users; [|done..]. apply Hne, (Hno q); [done|]. by eapply nexec_holds. }
  apply empty_wp; [by eapply tinv_wp_at|]. intros k Hk.
  destruct (wp_at (st_tree (nr_Stop E s (KUser n))) p !! k) as [x|] eqn:Ek; [|done]. exfalso.
  destruct k as [| |m]; [done| |].
  - apply (stop_internals_at E s n p HE Ht Hnu). unfold internals. by rewrite Ek.
  - apply (Hnu p m); [done|]. unfold users. by rewrite Ek.
Qed.
End stopall.
