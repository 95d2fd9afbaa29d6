(** * Prop_Fen (C77): FEN's file objects: what is freed, what is read, what is forgotten and
    how often a change is reported. *)
From Verif Require Import Base Event Paths Clean Trigger FenGen FenMem SpecFen FenFacts.
Local Open Scope N_scope.

(** ** The functions are those of Trigger.v *)
Theorem C77_same g st A A' ord p e ge :
  trg_Watch fn (as_ts g) st A p e = (as_ts (g_trg_Watch r_watch g st A p e).1, (g_trg_Watch r_watch g st A p e).2) ∧
  trg_Unwatch fn (as_ts g) st A p = (as_ts (g_trg_Unwatch r_watch r_unwatch g st A p).1, (g_trg_Unwatch r_watch r_unwatch g st A p).2) ∧
  trg_Rewatch fn (as_ts g) st A A' p e =
    (as_ts (g_trg_Rewatch r_watch r_unwatch g st A A' p e).1, (g_trg_Rewatch r_watch r_unwatch g st A A' p e).2) ∧
  (let g' := g_set_nat g (delete (inr p : ident) (g_nat g)) in
   trg_process fn (as_ts g) st A ord (inr p) ge =
    (as_ts (g_process r_watch r_unwatch g' st A ord p ge).1, (g_process r_watch r_unwatch g' st A ord p ge).2)).
Proof.
  split_and!.
  - destruct st; cbn [trg_Watch g_trg_Watch]; [apply s_watch|done].
  - destruct st; cbn [trg_Unwatch g_trg_Unwatch]; [apply s_unwatch|done].
  - destruct st as [d|]; cbn [trg_Rewatch g_trg_Rewatch]; [|done].
    rewrite s_unwatch. destruct (g_unwatch _ _ _ _ _ _) as [g1 r]. cbn [fst snd].
    destruct r; try done. by rewrite s_watch.
  - apply s_process.
Qed.

(** ** Nothing is freed twice *)
Definition inv1 (m : fmem) : Prop := fm_bad m = [] ∧ ∀ p a, fm_p2fo m !! p = Some a → fm_live m !! a = Some p.
Lemma fresh_live mal (m : fmem) : malloc_ok mal → fm_live m !! mal (fm_n m) (dom (fm_live m)) = None.
Proof. intros H. apply not_elem_of_dom. apply H. Qed.
Lemma associate_live mal m A p e :
  fm_live (m_associate mal m A p e).1 = <[mal (fm_n m) (dom (fm_live m)) := p]> (fm_live m).
Proof. unfold m_associate. by destruct (a_watch A p). Qed.
Lemma associate_p2fo mal m A p e :
  fm_p2fo (m_associate mal m A p e).1 = <[p := mal (fm_n m) (dom (fm_live m))]> (fm_p2fo m).
Proof. unfold m_associate. by destruct (a_watch A p). Qed.
Lemma associate_bad mal m A p e : fm_bad (m_associate mal m A p e).1 = fm_bad m.
Proof. unfold m_associate. by destruct (a_watch A p). Qed.
Lemma associate_queue mal m A p e : fm_queue (m_associate mal m A p e).1 = fm_queue m.
Proof. unfold m_associate. by destruct (a_watch A p). Qed.
Lemma associate_inv1 mal m A p e : malloc_ok mal → inv1 m → inv1 (m_associate mal m A p e).1.
Proof.
  intros Hm [H1 H2]. split; [by rewrite associate_bad|]. intros q a.
  rewrite associate_p2fo, associate_live. rewrite lookup_insert_Some. intros [[<- <-]|[Hne Hq]].
  - apply lookup_insert.
  - specialize (H2 _ _ Hq). rewrite lookup_insert_ne; [done|].
    intros E. rewrite <-E, fresh_live in H2 by done. done.
Qed.
Lemma dissociate_live m A p : fm_live (m_dissociate m A p).1 = match fm_p2fo m !! p with Some a => delete a (fm_live m) | None => fm_live m end.
Proof. unfold m_dissociate. destruct (fm_p2fo m !! p); [|done]. by destruct (a_unwatch A p). Qed.
Lemma dissociate_p2fo m A p : fm_p2fo (m_dissociate m A p).1 = delete p (fm_p2fo m).
Proof.
  unfold m_dissociate. destruct (fm_p2fo m !! p) eqn:E; [by destruct (a_unwatch A p)|].
  symmetry. by apply delete_notin.
Qed.
Lemma dissociate_bad m A p : inv1 m → fm_bad (m_dissociate m A p).1 = [].
Proof.
  intros [H1 H2]. unfold m_dissociate. destruct (fm_p2fo m !! p) as [a|] eqn:E; [|done].
  specialize (H2 _ _ E). destruct (a_unwatch A p); cbn [fst fm_bad m_free m_port_dissociate fm_live]; by rewrite H2.
Qed.
Lemma dissociate_inv1 m A p : inv1 m → inv1 (m_dissociate m A p).1.
Proof.
  intros HI. split; [by apply dissociate_bad|]. destruct HI as [H1 H2]. intros q a.
  rewrite dissociate_p2fo, dissociate_live, lookup_delete_Some. intros [Hne Hq].
  specialize (H2 _ _ Hq) as Hl. destruct (fm_p2fo m !! p) as [b'|] eqn:E; [|done].
  rewrite lookup_delete_ne; [done|]. intros ->. specialize (H2 _ _ E). congruence.
Qed.
Lemma step_R (R : fmem → fmem → Prop) (Q : answers → Prop) mal s l s' :
  (∀ m, R m m) → (∀ a b c, R a b → R b c → R a c) →
  (∀ m A p e, Q A → R m (m_associate mal m A p e).1) → (∀ m A p, Q A → R m (m_dissociate m A p).1) →
  match l with
  | FWatch _ A _ _ _ | FUnwatch _ A _ _ | FProcess _ A _ _ _ _ => Q A
  | FRewatch _ A A' _ _ _ => Q A ∧ Q A'
  | _ => True
  end →
  fstep mal s l s' → is_call l ∨ is_process l → R (f_mem s) (f_mem s').
Proof.
  intros HR HT Hw Hu HQ Hst Hl. destruct Hst as [st A p e g r E|st A p g r E|st A A' p e g r E| | | |st A ord p ge g evn Hm Ho E]; try (by destruct Hl).
  - unfold f_mem. cbn [f_g]. change g with (g, r).1. rewrite <-E. by eapply (p_trg_Watch _ Q R).
  - unfold f_mem. cbn [f_g]. change g with (g, r).1. rewrite <-E. by eapply (p_trg_Unwatch _ _ Q R).
  - unfold f_mem. cbn [f_g]. change g with (g, r).1. rewrite <-E. destruct HQ. by eapply (p_trg_Rewatch _ _ Q R).
  - unfold f_mem. cbn [f_g]. change g with (g, evn).1. rewrite <-E. by eapply (p_process _ _ Q R).
Qed.
Lemma step_inv1 mal s l s' : malloc_ok mal → fstep mal s l s' → inv1 (f_mem s) → inv1 (f_mem s').
Proof.
  intros Hm Hst HI.
  assert (Hcp : is_call l ∨ is_process l → inv1 (f_mem s')).
  { intros Hl. refine (step_R (λ a b, inv1 a → inv1 b) (λ _, True) mal s l s' _ _ _ _ _ Hst Hl HI).
    - done.
    - auto.
    - intros. by apply associate_inv1.
    - intros. by apply dissociate_inv1.
    - by destruct l. }
  destruct Hst; try (apply Hcp; by (left + right)); exact HI.
Qed.
Lemma exec_inv1 tr s : fexec tr s → inv1 (f_mem s).
Proof. induction 1; [done|]. by eapply step_inv1. Qed.
(** In every execution, whatever malloc and the OS answer and however calls and events
    interleave: only allocated memory is freed. *)
Theorem C77_frees tr s : fexec tr s → fm_bad (f_mem s) = [].
Proof. intros H. apply (exec_inv1 _ _ H). Qed.

(** ** The name that is read *)
Definition inv2 (m : fmem) : Prop :=
  (∀ a p e, fm_assoc m !! a = Some (p, e) → fm_live m !! a = Some p) ∧
  (∀ a e, (a, e) ∈ fm_queue m → is_Some (fm_live m !! a)).
Definition qname (L : gmap addr str) (x : addr * N) : option (str * N) := (λ p, (p, x.2)) <$> L !! x.1.
Definition qn (m : fmem) : list (str * N) := omap (qname (fm_live m)) (fm_queue m).
Lemma omap_ext_in {A B} (f h : A → option B) (l : list A) : (∀ x, x ∈ l → f x = h x) → omap f l = omap h l.
Proof.
  induction l as [|x l IH]; intros H; [done|]. cbn. rewrite (H x) by left. rewrite IH; [done|].
  intros y Hy. apply H. by right.
Qed.
Lemma omap_sublist {A B} (f : A → option B) (l k : list A) : l `sublist_of` k → omap f l `sublist_of` omap f k.
Proof.
  induction 1 as [|x l k H IH|x l k H IH]; cbn; [done|..]; destruct (f x); try done.
  - by apply sublist_skip.
  - by apply sublist_cons.
Qed.
Lemma associate_inv2 mal m A p e : malloc_ok mal → inv2 m → inv2 (m_associate mal m A p e).1 ∧ qn (m_associate mal m A p e).1 = qn m.
Proof.
  intros Hm [H1 H2]. pose proof (fresh_live mal m Hm) as Hf. set (a := mal (fm_n m) (dom (fm_live m))) in *.
  assert (Hl : ∀ b q, fm_live m !! b = Some q → <[a := p]> (fm_live m) !! b = Some q).
  { intros b q Hq. rewrite lookup_insert_ne; [done|]. congruence. }
  split; [split|].
  - intros b q e'. rewrite associate_live. fold a. unfold m_associate. fold a. intros Hb.
    destruct (a_watch A p); cbn [fst fm_assoc] in Hb; [|by eapply Hl, H1..].
    apply lookup_insert_Some in Hb as [[<- [= <- <-]]|[Hne Hb]]; [apply lookup_insert|by eapply Hl, H1].
  - intros b e'. rewrite associate_queue, associate_live. fold a. intros [q Hq]%H2. exists q. by apply Hl.
  - unfold qn. rewrite associate_queue, associate_live. fold a. apply omap_ext_in. intros [b e'] [q Hq]%H2.
    unfold qname. cbn [fst]. rewrite Hq, (Hl _ _ Hq). done.
Qed.
Lemma filter_sub {A} (P : A → Prop) `{∀ x, Decision (P x)} (l : list A) : filter P l `sublist_of` l.
Proof.
  induction l as [|x l IH]; [done|]. rewrite filter_cons. destruct (decide (P x)); [by apply sublist_skip|by apply sublist_cons].
Qed.
Lemma dissociate_inv2 m A p : port_fair A → inv1 m → inv2 m → inv2 (m_dissociate m A p).1 ∧ qn (m_dissociate m A p).1 `sublist_of` qn m.
Proof.
  intros HA HI [H1 H2]. unfold m_dissociate. destruct (fm_p2fo m !! p) as [a|] eqn:E; [|by split].
  rewrite HA. cbn [m_port_dissociate fst fm_live fm_assoc fm_queue m_free].
  assert (Hl : ∀ b, b ≠ a → delete a (fm_live m) !! b = fm_live m !! b) by (intros b Hb; by rewrite lookup_delete_ne).
  split; [split|]; cbn [fm_assoc fm_live fm_queue].
  - intros b q e [Hne Hb]%lookup_delete_Some. rewrite Hl by done. by eapply H1.
  - intros b e [Hne Hb]%elem_of_list_filter. cbn in Hne. rewrite Hl by done. by eapply H2.
  - unfold qn. cbn [fm_live fm_queue]. rewrite (omap_ext_in _ (qname (fm_live m))).
    + apply omap_sublist, filter_sub.
    + intros [b e] [Hne Hb]%elem_of_list_filter. unfold qname. cbn [fst] in *. by rewrite Hl.
Qed.
Definition names_ok (m m' : fmem) : Prop := inv1 m ∧ inv2 m → inv1 m' ∧ inv2 m' ∧ qn m' `sublist_of` qn m.
Definition monn (s : fsys) : list (str * N) :=
  match f_mon s with MIdle => [] | MGot a ge => omap (qname (fm_live (f_mem s))) [(a, ge)] | MHas p ge => [(p, ge)] end.
Lemma undisturbed_app tr tr' : undisturbed (tr ++ tr') → undisturbed tr.
Proof.
  intros H i j l l' Hij Hi Hl Hj Hl'.
  destruct (H i j l l' Hij) as (k & l'' & Hk & Hk' & Hr); [by apply lookup_app_l_Some|done|by apply lookup_app_l_Some|done|].
  exists k, l''. split; [done|]. split; [|done]. rewrite lookup_app_l in Hk'; [done|]. apply lookup_lt_Some in Hj. lia.
Qed.
Definition got_since (tr : list flabel) : Prop :=
  ∃ i l, tr !! i = Some l ∧ is_get l ∧ ∀ k l', (i < k)%nat → tr !! k = Some l' → ¬ is_read l'.
Lemma got_app tr l : got_since tr → ¬ is_read l → got_since (tr ++ [l]).
Proof.
  intros (i & l0 & Hi & Hg & H) Hl. exists i, l0. split; [by apply lookup_app_l_Some|]. split; [done|].
  intros k l' Hk Hk'. apply lookup_app_Some in Hk' as [Hk'|[Hk1 Hk2]]; [by eapply H|].
  apply list_lookup_singleton_Some in Hk2 as [_ <-]. done.
Qed.
Lemma got_disturbed tr l : got_since tr → is_call l → ¬ undisturbed (tr ++ [l]).
Proof.
  intros (i & l0 & Hi & Hg & H) Hl Hu.
  destruct (Hu i (length tr) l0 l) as (k & l'' & Hk & Hk' & Hr).
  - by eapply lookup_lt_Some.
  - by apply lookup_app_l_Some.
  - done.
  - by apply list_lookup_middle.
  - done.
  - rewrite lookup_app_l in Hk' by lia. eapply H; [|exact Hk'|exact Hr]. lia.
Qed.
Lemma reported_app tr l : reported (tr ++ [l]) = reported tr ++ reports_of l.
Proof. unfold reported. rewrite bind_app. cbn. by rewrite app_nil_r. Qed.
Lemma taken_app tr l : taken (tr ++ [l]) = taken tr ++ taken_of l.
Proof. unfold taken. rewrite bind_app. cbn. by rewrite app_nil_r. Qed.
Lemma names_inv tr s : fexec tr s → Forall label_fair tr → undisturbed tr →
  inv2 (f_mem s) ∧ f_stale s = [] ∧ taken tr ++ monn s ++ qn (f_mem s) `sublist_of` reported tr ∧
  (∀ a ge, f_mon s = MGot a ge → is_Some (fm_live (f_mem s) !! a) ∧ got_since tr).
Proof.
  induction 1 as [|tr s mal l s' Hx IH Hm Hst]; intros Hfair Hu.
  { split_and!; [|done|done|done]. split; [|by intros ?? ?%elem_of_nil]. intros ???. cbn. by rewrite lookup_empty. }
  apply Forall_app in Hfair as [Hfair Hl]. apply Forall_cons_1 in Hl as [Hl _].
  destruct (IH Hfair (undisturbed_app _ _ Hu)) as (I2 & Hs & Hsub & Hgot). clear IH.
  pose proof (exec_inv1 _ _ Hx) as I1. rewrite reported_app, taken_app.
  assert (Hcp : is_call l ∨ is_process l → names_ok (f_mem s) (f_mem s')).
  { intros Hc. refine (step_R names_ok port_fair mal s l s' _ _ _ _ _ Hst Hc).
    - intros m [? ?]. split_and!; [done|done|reflexivity].
    - intros a c d H1 H2 Ha. destruct (H1 Ha) as (?&?&?). destruct (H2 (conj H H0)) as (?&?&?). split_and!; try done. by etrans.
    - intros m A p e _ [J1 J2]. destruct (associate_inv2 mal m A p e Hm J2) as [J3 J4].
      split_and!; [by apply associate_inv1|done|by rewrite J4].
    - intros m A p HA [J1 J2]. destruct (dissociate_inv2 m A p HA J1 J2) as [J3 J4].
      split_and!; [by apply dissociate_inv1|done|done].
    - exact Hl. }
  assert (Hcall : is_call l → f_mon s' = f_mon s → f_stale s' = f_stale s → taken_of l = [] → reports_of l = [] →
    inv2 (f_mem s') ∧ f_stale s' = [] ∧ (taken tr ++ taken_of l) ++ monn s' ++ qn (f_mem s') `sublist_of` reported tr ++ reports_of l ∧
    (∀ a ge, f_mon s' = MGot a ge → is_Some (fm_live (f_mem s') !! a) ∧ got_since (tr ++ [l]))).
  { intros Hc Em Es -> ->. destruct (Hcp (or_introl Hc) (conj I1 I2)) as (_ & J2 & J3).
    assert (Hng : ∀ a ge, f_mon s ≠ MGot a ge).
    { intros a ge E. destruct (Hgot _ _ E) as [_ Hg]. by eapply got_disturbed. }
    rewrite !app_nil_r. split_and!; [done|by rewrite Es| |].
    - etrans; [|exact Hsub]. apply sublist_app; [done|]. apply sublist_app; [|done].
      unfold monn. rewrite Em. destruct (f_mon s) eqn:E; try done. by destruct (Hng a ge).
    - rewrite Em. intros a ge E. by destruct (Hng a ge). }
  destruct Hst as [st A p e g r E|st A p g r E|st A A' p e g r E|p ge hits Hh|a ge q Hi Hq|a ge p Hi Hp|st A ord p ge g evn Hi Ho E];
    try (by apply Hcall).
  - (* change *)
    destruct I2 as [Ia Iq].
    assert (Hin : ∀ x, x ∈ hits → fm_live (f_mem s) !! x.1 = Some x.2.1).
    { intros [b [q mk]] Hb. rewrite Hh in Hb. apply elem_of_list_filter in Hb as [_ Hb]. apply elem_of_map_to_list in Hb.
      by eapply Ia. }
    clear Hcp Hcall. unfold monn, qn, set_mem. unfold f_mem. cbn [f_g g_nat g_set_nat fm_assoc fm_queue fm_live f_mon f_stale].
    change (g_nat (f_g s)) with (f_mem s). split_and!.
    + split; cbn [fm_assoc fm_queue fm_live].
      * intros b q mk [Hb _]%map_filter_lookup_Some. by eapply Ia.
      * intros b e [Hb|Hb]%elem_of_app; [by eapply Iq|].
        apply elem_of_list_fmap in Hb as ([b' [q mk]] & [= -> ->] & Hb). eexists. apply (Hin _ Hb).
    + done.
    + cbn [taken_of]. rewrite app_nil_r. rewrite omap_app.
      assert (Eh : omap (qname (fm_live (f_mem s))) ((λ x, (x.1, ge .& (x.2.2 .| fen_always))) <$> hits) = reports_of (FChange p ge hits)).
      { cbn [reports_of]. clear -Hin. induction hits as [|x hits IH]; [done|]. cbn.
        unfold qname at 1. cbn [fst snd]. rewrite (Hin x) by left. cbn. f_equal. apply IH. intros y Hy. apply Hin. by right. }
      rewrite Eh. rewrite !app_assoc. apply sublist_app; [|done]. rewrite <-app_assoc. exact Hsub.
    + intros a ge' E. destruct (Hgot _ _ E) as [HH1 HH2]. split; [done|]. apply got_app; [done|]. cbn. tauto.
  - (* get *)
    destruct I2 as [Ia Iq].
    clear Hcp Hcall. unfold monn, qn, set_mem. unfold f_mem. cbn [f_g g_nat g_set_nat fm_assoc fm_queue fm_live f_mon f_stale]. change (g_nat (f_g s)) with (f_mem s).
    split_and!.
    + split; cbn [fm_assoc fm_queue fm_live]; [exact Ia|]. intros b e Hb. eapply Iq. rewrite Hq. by right.
    + done.
    + cbn [taken_of reports_of]. rewrite !app_nil_r. etrans; [|exact Hsub]. apply sublist_app; [done|].
      unfold monn, qn. rewrite Hi, Hq. rewrite <-omap_app. done.
    + intros b ge' [= <- <-]. split; [eapply Iq; rewrite Hq; left|].
      exists (length tr), (FGet a ge). split; [by apply list_lookup_middle|]. split; [done|].
      intros k l' Hk Hk'. apply lookup_lt_Some in Hk'. rewrite app_length in Hk'. cbn in Hk'. lia.
  - (* read *)
    destruct (Hgot _ _ Hi) as [[q Hq] _]. specialize (Hp _ Hq) as ->. rewrite Hq.
    unfold monn, f_mem. cbn [f_g f_mon f_stale]. fold (f_mem s). split_and!; try done.
    cbn [taken_of reports_of]. rewrite !app_nil_r. etrans; [|exact Hsub]. apply sublist_app; [done|]. apply sublist_app; [|done].
    unfold monn. rewrite Hi. cbn. unfold qname. cbn. by rewrite Hq.
  - (* process *)
    destruct (Hcp (or_intror I) (conj I1 I2)) as (_ & J2 & J3). split_and!; [done|done| |done].
    cbn [taken_of reports_of]. rewrite !app_nil_r. etrans; [|exact Hsub]. unfold monn. cbn [f_mon]. rewrite Hi.
    rewrite <-!app_assoc. apply sublist_app; [done|]. apply sublist_app; [done|]. exact J3.
Qed.
(** As long as no call comes between port_get and the reading of the name: the monitor never
    reads memory that is not allocated, and what it processes are events the OS reported, in
    that order, each for the file it was about. *)
Theorem C77_names tr s : fexec tr s → Forall label_fair tr → undisturbed tr →
  f_stale s = [] ∧ taken tr `sublist_of` reported tr.
Proof.
  intros Hx Hf Hu. destruct (names_inv tr s Hx Hf Hu) as (_ & Hs & Hsub & _). split; [done|].
  etrans; [|exact Hsub]. by apply sublist_inserts_r.
Qed.

(** ** Executions to point at *)
Definition mal0 : malloc := λ _ X, Pos.succ (foldr Pos.max 1%positive (elements X)).
Lemma mal0_ok : malloc_ok mal0.
Proof.
  intros n X. unfold mal0. rewrite <-elem_of_elements. generalize (elements X). intros l.
  assert (H : ∀ a, a ∈ l → (a ≤ foldr Pos.max 1 l)%positive).
  { induction l as [|b' l IH]; intros a; [by intros ?%elem_of_nil|].
    intros [->|Ha]%elem_of_cons; cbn [foldr]; [lia|]. specialize (IH _ Ha). lia. }
  intros Hin. specialize (H _ Hin). lia.
Qed.
(** Everything is granted; [ls] is what the directories contain. *)
Definition yes (ls : str → option (list finfo)) : answers := Ans (λ _, 0%nat) (λ _, NewOk) (λ _, SOk) (λ _, SOk) ls.
Lemma yes_fair ls : port_fair (yes ls).
Proof. done. Qed.
Inductive fcmd :=
  | KWatch (st : option bool) (A : answers) (p : str) (e : N)
  | KUnwatch (st : option bool) (A : answers) (p : str)
  | KChange (p : str) (ge : N)
  | KGet
  | KRead (garbage : str)
  | KProcess (st : option bool) (A : answers).
Definition fdo (s : fsys) (c : fcmd) : option (flabel * fsys) :=
  match c with
  | KWatch st A p e => let '(g, r) := g_trg_Watch (m_associate mal0) (f_g s) st A p e in
      Some (FWatch st A p e r, FSys g (f_mon s) (f_stale s))
  | KUnwatch st A p => let '(g, r) := g_trg_Unwatch (m_associate mal0) m_dissociate (f_g s) st A p in
      Some (FUnwatch st A p r, FSys g (f_mon s) (f_stale s))
  | KChange p ge =>
      let hits := filter (hit p ge) (map_to_list (fm_assoc (f_mem s))) in
      Some (FChange p ge hits, set_mem s (FMem (fm_n (f_mem s)) (fm_live (f_mem s)) (fm_p2fo (f_mem s))
           (filter (λ x, ¬ hit p ge x) (fm_assoc (f_mem s)))
           (fm_queue (f_mem s) ++ ((λ x, (x.1, ge .& (x.2.2 .| fen_always))) <$> hits)) (fm_bad (f_mem s))))
  | KGet => match f_mon s, fm_queue (f_mem s) with
            | MIdle, (a, ge) :: q => Some (FGet a ge,
                FSys (f_g (set_mem s (FMem (fm_n (f_mem s)) (fm_live (f_mem s)) (fm_p2fo (f_mem s)) (fm_assoc (f_mem s)) q (fm_bad (f_mem s))))) (MGot a ge) (f_stale s))
            | _, _ => None
            end
  | KRead p0 => match f_mon s with
               | MGot a ge => let p := default p0 (fm_live (f_mem s) !! a) in
                   Some (FRead p ge, FSys (f_g s) (MHas p ge) (match fm_live (f_mem s) !! a with Some _ => f_stale s | None => a :: f_stale s end))
               | _ => None
               end
  | KProcess st A => match f_mon s with
                     | MHas p ge =>
                         let ord := (map_to_list (g_path (f_g s))).*1 in
                         let '(g, evn) := g_process (m_associate mal0) m_dissociate (f_g s) st A ord p ge in
                         Some (FProcess st A ord p ge evn, FSys g MIdle (f_stale s))
                     | _ => None
                     end
  end.
Lemma fdo_step s c l s' : fdo s c = Some (l, s') → fstep mal0 s l s'.
Proof.
  destruct c as [st A p e|st A p|p ge| |p0|st A]; cbn [fdo]; intros H.
  - destruct (g_trg_Watch _ _ _ _ _ _) as [g r] eqn:E. injection H as <- <-. by apply fs_watch.
  - destruct (g_trg_Unwatch _ _ _ _ _ _) as [g r] eqn:E. injection H as <- <-. by apply fs_unwatch.
  - injection H as <- <-. by apply fs_change.
  - destruct (f_mon s) eqn:Em; try done. destruct (fm_queue (f_mem s)) as [|[a ge] q] eqn:E; [done|].
    injection H as <- <-. by apply fs_get.
  - destruct (f_mon s) as [|a ge|] eqn:E; try done. injection H as <- <-. apply (fs_read _ _ a ge); [done|].
    intros q ->. done.
  - destruct (f_mon s) as [| |p ge] eqn:E; try done.
    destruct (g_process _ _ _ _ _ _ _ _) as [g evn] eqn:Ep. injection H as <- <-. by apply fs_process.
Qed.
Fixpoint frun (tr : list flabel) (s : fsys) (cs : list fcmd) : option (list flabel * fsys) :=
  match cs with
  | [] => Some (tr, s)
  | c :: cs => match fdo s c with Some (l, s') => frun (tr ++ [l]) s' cs | None => None end
  end.
Lemma frun_exec cs tr s tr' s' : fexec tr s → frun tr s cs = Some (tr', s') → fexec tr' s'.
Proof.
  revert tr s. induction cs as [|c cs IH]; intros tr s Hx H; cbn [frun] in H; [by injection H as <- <-|].
  destruct (fdo s c) as [[l s1]|] eqn:E; [|done]. eapply IH; [|exact H].
  econstructor; [exact Hx|exact mal0_ok|by eapply fdo_step].
Qed.

(** ** The race *)
Definition fx_ls (_ : str) : option (list finfo) := None.
Definition fx_d : str := b "/d". Definition fx_x : str := b "/d/x". Definition fx_y : str := b "/d/y".
(** [/d/x] changes; port_get has returned; then [/d/x] is unwatched and [/d/y] watched. *)
Definition race_cmds : list fcmd :=
  [KWatch (Some false) (yes fx_ls) fx_x (Write fen); KChange fx_x FileModified; KGet;
   KUnwatch (Some false) (yes fx_ls) fx_x].
Definition race_tail : list fcmd :=
  [KWatch (Some false) (yes fx_ls) fx_y (Write fen); KRead []; KProcess (Some false) (yes fx_ls)].
Definition dup_ls (names : list str) (p : str) : option (list finfo) :=
  if bool_decide (p = fx_d) then Some ((λ n, FI n false) <$> names) else None.
Definition dup_cmds : list fcmd :=
  [KWatch (Some true) (yes (dup_ls [b "x"])) fx_d (Create fen .| Write fen);
   KChange fx_d FileModified; KGet; KRead []; KProcess (Some true) (yes (dup_ls [b "x"; b "y"]));
   KChange fx_x FileModified;
   KGet; KRead []; KProcess (Some false) (yes fx_ls); KGet; KRead []; KProcess (Some false) (yes fx_ls)].

Lemma frun_out cs tr s : frun [] f_init cs = Some (tr, s) → fexec tr s.
Proof. intros H. eapply frun_exec; [apply fx_init|exact H]. Qed.
Lemma frun_some {B} cs (f : list flabel * fsys → B) (y : B) :
  f <$> frun [] f_init cs = Some y → ∃ tr s, frun [] f_init cs = Some (tr, s) ∧ fexec tr s ∧ f (tr, s) = y.
Proof.
  destruct (frun [] f_init cs) as [[tr s]|] eqn:E; [|done]. intros [= <-]. exists tr, s. split; [done|].
  split; [by eapply frun_out|done].
Qed.
Definition label_kind (l : flabel) : nat :=
  match l with FWatch _ _ _ _ _ => 0 | FUnwatch _ _ _ _ => 1 | FRewatch _ _ _ _ _ _ => 2 | FChange _ _ _ => 3 | FGet _ _ => 4 | FRead _ _ => 5 | FProcess _ _ _ _ _ _ => 6 end.
Definition cmd_fair (c : fcmd) : Prop :=
  match c with KWatch _ A _ _ | KUnwatch _ A _ | KProcess _ A => port_fair A | _ => True end.
Lemma frun_fair cs tr s tr' s' : frun tr s cs = Some (tr', s') → Forall cmd_fair cs → Forall label_fair tr → Forall label_fair tr'.
Proof.
  revert tr s. induction cs as [|c cs IH]; intros tr s H Hc Ht; cbn [frun] in H; [by injection H as <- <-|].
  apply Forall_cons in Hc as [Hc Hcs].
  destruct (fdo s c) as [[l s1]|] eqn:E; [|done]. eapply IH; [exact H|done|].
  apply Forall_app. split; [done|]. apply Forall_cons_2; [|apply Forall_nil_2].
  destruct c; cbn [fdo] in E.
  - destruct (g_trg_Watch _ _ _ _ _ _). by injection E as <- <-.
  - destruct (g_trg_Unwatch _ _ _ _ _ _). by injection E as <- <-.
  - by injection E as <- <-.
  - destruct (f_mon s); try done. destruct (fm_queue _) as [|[??]?]; [done|]. by injection E as <- <-.
  - destruct (f_mon s); try done. by injection E as <- <-.
  - destruct (f_mon s); try done. destruct (g_process _ _ _ _ _ _ _ _). by injection E as <- <-.
Qed.
(** Refuted: what is processed was reported.  Only [/d/x] changes, and the user is told that
    [/d/y] did: the object was freed by the Unwatch after port_get handed it out, and malloc
    gave its place to the object of [/d/y].  Without the second Watch the monitor reads
    freed memory. *)
Theorem C77_race_refuted :
  (∃ tr s, fexec tr s ∧ Forall label_fair tr ∧ changes tr = [(fx_x, FileModified)] ∧ reported tr = [(fx_x, FileModified)] ∧
     taken tr = [(fx_y, FileModified)] ∧ fsent tr = [TE fx_y (Write fen) false]) ∧
  (∃ tr s, fexec tr s ∧ Forall label_fair tr ∧ f_stale s ≠ []).
Proof.
  split.
  - destruct (frun_some (race_cmds ++ race_tail) (λ x, (changes x.1, reported x.1, taken x.1, fsent x.1))
      ([(fx_x, FileModified)], [(fx_x, FileModified)], [(fx_y, FileModified)], [TE fx_y (Write fen) false])) as (tr & s & Hr & Hx & E).
    { by vm_compute. }
    exists tr, s. injection E as E1 E2 E3 E4. split; [exact Hx|]. split; [|exact (conj E1 (conj E2 (conj E3 E4)))].
    eapply frun_fair; [exact Hr| |apply Forall_nil_2]. clear. repeat (apply Forall_cons_2; [done|]). apply Forall_nil_2.
  - destruct (frun_some (race_cmds ++ [KRead []]) (λ x, f_stale x.2) [2%positive]) as (tr & s & Hr & Hx & E).
    { by vm_compute. }
    exists tr, s. split; [exact Hx|]. split.
    + eapply frun_fair; [exact Hr| |apply Forall_nil_2]. clear. repeat (apply Forall_cons_2; [done|]). apply Forall_nil_2.
    + cbn [snd] in E. rewrite E. discriminate.
Qed.
(** Refuted: a change is reported once.  A second file is created in a watched directory, the
    rescan associates the first one again without ending the association it has, and then
    one write to it reaches the user twice. *)
Theorem C77_twice_refuted :
  ∃ tr s, fexec tr s ∧ Forall label_fair tr ∧ between_events tr ∧ changes tr = [(fx_d, FileModified); (fx_x, FileModified)] ∧
    fsent tr = [TE fx_y (Create fen) false; TE fx_x (Write fen) false; TE fx_x (Write fen) false].
Proof.
  destruct (frun_some dup_cmds (λ x, (changes x.1, fsent x.1, label_kind <$> x.1))
    ([(fx_d, FileModified); (fx_x, FileModified)],
     [TE fx_y (Create fen) false; TE fx_x (Write fen) false; TE fx_x (Write fen) false],
     [0; 3; 4; 5; 6; 3; 4; 5; 6; 4; 5; 6]%nat)) as (tr & s & Hr & Hx & E).
  { by vm_compute. }
  exists tr, s. injection E as E1 E2 E3. split; [exact Hx|]. split; [|split; [|exact (conj E1 E2)]].
  - eapply frun_fair; [exact Hr| |apply Forall_nil_2]. clear. repeat (apply Forall_cons_2; [done|]). apply Forall_nil_2.
  - clear -E3. intros i j l l' Hij Hi Hl Hj Hl'.
    assert (Hk : (label_kind <$> tr) !! j = Some (label_kind l')) by by rewrite list_lookup_fmap, Hj.
    cbn [fst] in E3. rewrite E3 in Hk.
    assert (label_kind l' ≤ 2)%nat by (destruct l'; cbn in *; try done; lia).
    destruct j as [|j]; [lia|]. do 11 (destruct j as [|j]; [injection Hk as Hk; lia|]). done.
Qed.

(** ** Memory *)
(** Every report of a watched file that is processed while the file is there takes one more
    object, and none is given back. *)
Theorem C77_grows mal s s' d A ord p ge evn i w : malloc_ok mal →
  fstep mal s (FProcess (Some d) A ord p ge evn) s' →
  g_path (f_g s) !! p = Some i → g_heap (f_g s) !! i = Some w → tw_dir w = false →
  ge .& (FileRenameFrom .| FileDelete) = 0 →
  size (fm_live (f_mem s')) = S (size (fm_live (f_mem s))).
Proof.
  intros Hm Hst Hp Hh Hd Hge. inversion Hst as [| | | | | |??????? Hmon Ho E]; subst.
  unfold g_process in E. rewrite Hp, Hh, Hge, Hd in E. cbv zeta in E. cbn [N.eqb] in E.
  assert (Hg : ∀ g1 : gst fmem, g1 = match g_Watch (m_associate mal) (f_g s) A i (fen_encode (tw_e w) d) with
                        | (g, ROk) => g | (g, _) => g_Del g i end → size (fm_live (g_nat g1)) = S (size (fm_live (f_mem s)))).
  { intros g1 ->. unfold g_Watch. rewrite Hh.
    pose proof (associate_live mal (g_nat (f_g s)) A (tw_p w) (fen_encode (tw_e w) d)) as El.
    destruct (m_associate _ _ _ _ _) as [m r]. cbn [fst] in El.
    assert (Es : size (fm_live m) = S (size (fm_live (f_mem s)))).
    { rewrite El. rewrite map_size_insert_None; [done|]. by apply fresh_live. }
    destruct r; rewrite ?n_Del; done. }
  unfold f_mem at 1. cbn [f_g].
  destruct (_ && _); injection E as <- <-; by apply Hg.
Qed.
Local Instance tw_eq_dec : EqDecision tw.
Proof. solve_decision. Defined.
Definition lk_w : tw := TW fx_x false (Write fen) 0 0.
Definition lk_inv (n : nat) (s : fsys) : Prop :=
  f_mon s = MIdle ∧ g_heap (f_g s) = {[0%nat := lk_w]} ∧ g_path (f_g s) = {[fx_x := 0%nat]} ∧ fm_queue (f_mem s) = [] ∧
  size (fm_live (f_mem s)) = S n ∧
  ∃ a, fm_live (f_mem s) !! a = Some fx_x ∧ fm_p2fo (f_mem s) = {[fx_x := a]} ∧ fm_assoc (f_mem s) = {[a := (fx_x, FileModified)]}.
Lemma lk_round n s tr0 : lk_inv n s → fexec tr0 s → Forall label_fair tr0 →
  ∃ tr s', fexec (tr0 ++ tr) s' ∧ Forall label_fair (tr0 ++ tr) ∧ lk_inv (S n) s' ∧
    changes tr = [(fx_x, FileModified)] ∧ fsent tr = [TE fx_x (Write fen) false] ∧ Forall (λ l, ¬ is_call l) tr.
Proof.
  destruct s as [[h pa nx [fn lv p2 as_ q bd]] mo st]. unfold lk_inv, f_mem.
  cbn [f_mon f_g g_heap g_path g_nat fm_queue fm_live fm_p2fo fm_assoc].
  intros (-> & -> & -> & -> & Hsz & a & Ha & -> & ->) Hx Hf.
  set (s0 := FSys (GS {[0%nat := lk_w]} {[fx_x := 0%nat]} nx (FMem fn lv {[fx_x := a]} {[a := (fx_x, FileModified)]} [] bd)) MIdle st) in *.
  set (x0 := (a, (fx_x, FileModified)) : addr * (str * N)).
  assert (Hhit : hit fx_x FileModified x0) by by split.
  assert (E1 : ∃ s1, fdo s0 (KChange fx_x FileModified) = Some (FChange fx_x FileModified [x0], s1) ∧
    s1 = FSys (GS {[0%nat := lk_w]} {[fx_x := 0%nat]} nx (FMem fn lv {[fx_x := a]} ∅ [(a, FileModified)] bd)) MIdle st).
  { eexists. split; [|reflexivity]. unfold fdo, f_mem, set_mem, g_set_nat, f_mem. cbn [s0 f_g g_nat g_heap g_path g_next fm_assoc fm_n fm_live fm_p2fo fm_queue fm_bad f_mon f_stale].
    rewrite map_to_list_singleton. rewrite filter_cons_True by exact Hhit. rewrite filter_nil.
    rewrite map_filter_singleton_False by (intros H; by apply H). done. }
  destruct E1 as (s1 & E1 & Es1).
  set (s2 := FSys (GS {[0%nat := lk_w]} {[fx_x := 0%nat]} nx (FMem fn lv {[fx_x := a]} ∅ [] bd)) (MGot a FileModified) st).
  assert (E2 : fdo s1 KGet = Some (FGet a FileModified, s2)) by by rewrite Es1.
  set (s3 := FSys (GS {[0%nat := lk_w]} {[fx_x := 0%nat]} nx (FMem fn lv {[fx_x := a]} ∅ [] bd)) (MHas fx_x FileModified) st).
  assert (E3 : fdo s2 (KRead []) = Some (FRead fx_x FileModified, s3)).
  { unfold fdo. cbn [s2 f_mon f_mem f_g g_nat fm_live]. unfold f_mem. cbn [f_g g_nat fm_live f_stale]. by rewrite Ha. }
  set (a' := mal0 fn (dom lv)).
  set (s4 := FSys (GS {[0%nat := lk_w]} {[fx_x := 0%nat]} nx (FMem (S fn) (<[a' := fx_x]> lv) {[fx_x := a']} {[a' := (fx_x, FileModified)]} [] bd)) MIdle st).
  assert (E4 : fdo s3 (KProcess (Some false) (yes fx_ls)) =
    Some (FProcess (Some false) (yes fx_ls) [fx_x] fx_x FileModified [TE fx_x (Write fen) false], s4)).
  { unfold fdo. cbn [s3 f_mon f_g g_path]. rewrite map_to_list_singleton. cbn [fmap list_fmap fst].
    unfold g_process. cbn [g_path g_heap]. rewrite !lookup_singleton. cbn [tw_dir lk_w].
    unfold g_Watch. cbn [g_heap]. rewrite lookup_singleton. cbn [tw_p lk_w g_nat].
    unfold m_associate. cbn [yes a_watch fm_n fm_live fm_p2fo fm_assoc fm_queue fm_bad]. fold a'.
    rewrite insert_singleton. rewrite insert_empty. reflexivity. }
  exists [FChange fx_x FileModified [x0]; FGet a FileModified; FRead fx_x FileModified;
    FProcess (Some false) (yes fx_ls) [fx_x] fx_x FileModified [TE fx_x (Write fen) false]], s4.
  split_and!.
  - assert (Hstep : ∀ tr s c l s', fexec tr s → fdo s c = Some (l, s') → fexec (tr ++ [l]) s').
    { intros tr s c l s' H1 H2. econstructor; [exact H1|exact mal0_ok|by eapply fdo_step]. }
    pose proof (Hstep _ _ _ _ _ (Hstep _ _ _ _ _ (Hstep _ _ _ _ _ (Hstep _ _ _ _ _ Hx E1) E2) E3) E4) as H.
    rewrite <-!app_assoc in H. exact H.
  - apply Forall_app. split; [done|]. repeat (apply Forall_cons_2; [done|]). apply Forall_nil_2.
  - done.
  - done.
  - done.
  - done.
  - cbn [s4 f_g g_nat fm_live]. rewrite map_size_insert_None; [by rewrite Hsz|]. apply not_elem_of_dom, mal0_ok.
  - exists a'. cbn [s4 f_g g_nat fm_live]. split_and!; [apply lookup_insert|done|done].
  - done.
  - done.
  - repeat (apply Forall_cons_2; [cbn; tauto|]). apply Forall_nil_2.
Qed.
Definition lk_g : gst fmem := (g_trg_Watch (m_associate mal0) (f_g f_init) (Some false) (yes fx_ls) fx_x (Write fen)).1.
Lemma lk_start : fexec [FWatch (Some false) (yes fx_ls) fx_x (Write fen) ROk] (FSys lk_g MIdle []) ∧ lk_inv 0 (FSys lk_g MIdle []).
Proof.
  split.
  - eapply (fx_step [] f_init mal0); [apply fx_init|exact mal0_ok|]. apply (fs_watch mal0 f_init). unfold lk_g.
    rewrite (surjective_pairing (g_trg_Watch _ _ _ _ _ _)) at 1. f_equal; by vm_compute.
  - assert (H : g_heap lk_g = {[0%nat := lk_w]} ∧ g_path lk_g = {[fx_x := 0%nat]} ∧
      fm_p2fo (g_nat lk_g) = {[fx_x := 2%positive]} ∧ fm_assoc (g_nat lk_g) = {[2%positive := (fx_x, FileModified)]} ∧
      fm_live (g_nat lk_g) = {[2%positive := fx_x]} ∧ fm_queue (g_nat lk_g) = [])
      by (split_and!; apply (bool_decide_unpack _); by vm_compute).
    destruct H as (H1 & H2 & H3 & H4 & H5 & H6). unfold lk_inv, f_mem. cbn [f_mon f_g]. rewrite H1, H2, H3, H4, H5, H6.
    split_and!; try done. exists 2%positive. split_and!; [apply lookup_singleton|done|done].
Qed.
(** Refuted: memory in use is bounded by what is watched.  One file is watched and written
    to [n] times; then it is unwatched, with success.  Nothing is watched, associated or
    remembered any more, and [n] objects remain. *)
Theorem C77_leak_refuted n :
  ∃ tr s, fexec tr s ∧ Forall label_fair tr ∧ changes tr = replicate n (fx_x, FileModified) ∧
    fsent tr = replicate n (TE fx_x (Write fen) false) ∧
    g_path (f_g s) = ∅ ∧ fm_p2fo (f_mem s) = ∅ ∧ fm_assoc (f_mem s) = ∅ ∧ fm_queue (f_mem s) = [] ∧ f_mon s = MIdle ∧
    size (fm_live (f_mem s)) = n.
Proof.
  assert (H : ∃ tr s, fexec tr s ∧ Forall label_fair tr ∧ changes tr = replicate n (fx_x, FileModified) ∧
    fsent tr = replicate n (TE fx_x (Write fen) false) ∧ lk_inv n s).
  { induction n as [|n (tr & s & Hx & Hf & Hc & Hs & HI)].
    - destruct lk_start as [Hx HI]. eexists _, _. split; [exact Hx|]. split_and!; try done.
      apply Forall_cons_2; [done|apply Forall_nil_2].
    - destruct (lk_round n s tr HI Hx Hf) as (tr' & s' & Hx' & Hf' & HI' & Hc' & Hs' & _).
      exists (tr ++ tr'), s'. split; [done|]. split; [done|].
      unfold changes, fsent in *. rewrite !bind_app, Hc, Hs, Hc', Hs'.
      replace (S n) with (n + 1)%nat by lia. rewrite !replicate_add. replace (n + 1)%nat with (S n) by lia. done. }
  destruct H as (tr & [[h pa nx [fm lv p2 as_ q bd]] mo st] & Hx & Hf & Hc & Hs & HI).
  unfold lk_inv, f_mem in HI. cbn [f_mon f_g g_heap g_path g_nat fm_queue fm_live fm_p2fo fm_assoc] in HI.
  destruct HI as (-> & -> & -> & -> & Hsz & a & Ha & -> & ->).
  eexists (tr ++ [FUnwatch (Some false) (yes fx_ls) fx_x ROk]), (FSys (GS {[0%nat := clear_role MDir lk_w]} ∅ nx (FMem fm (delete a lv) ∅ ∅ [] bd)) MIdle st).
  split.
  - eapply (fx_step tr _ mal0); [exact Hx|exact mal0_ok|]. apply fs_unwatch.
    cbn [g_trg_Unwatch f_g]. unfold g_unwatch, g_singleunwatch. cbn [g_path]. rewrite lookup_singleton.
    unfold g_Unwatch, g_upd. cbn [g_heap g_path g_next g_nat]. rewrite lookup_singleton. cbn [g_heap g_path g_next g_nat].
    rewrite insert_singleton, lookup_singleton. cbn [clear_role lk_w tw_p].
    unfold m_dissociate. cbn [fm_p2fo]. rewrite lookup_singleton. cbn [yes a_unwatch m_port_dissociate].
    unfold m_port_dissociate, m_free. cbn [fm_n fm_live fm_p2fo fm_assoc fm_queue fm_bad]. rewrite Ha.
    rewrite bool_decide_true by (left; rewrite lookup_singleton; by eexists).
    unfold g_set_nat. cbn [g_heap g_path g_next g_nat]. rewrite lookup_singleton.
    unfold tw_e. cbn [tw_eDir tw_eNonDir tw_dir]. change (nonzero (0 .| 0)) with false. cbn iota.
    unfold g_Del. cbn [g_heap g_path g_next g_nat tw_p]. rewrite lookup_singleton. cbn [tw_p].
    by rewrite !delete_singleton, filter_nil.
  - split_and!; try done.
    + apply Forall_app. split; [done|]. apply Forall_cons_2; [done|apply Forall_nil_2].
    + unfold changes in *. by rewrite bind_app, Hc, app_nil_r.
    + unfold fsent in *. by rewrite bind_app, Hs, app_nil_r.
    + unfold f_mem. cbn [f_g g_nat fm_live]. rewrite map_size_delete_Some by by eexists. by rewrite Hsz.
Qed.

(** ** Once *)
Record KG (g : gst fmem) : Prop := {
  k_inv1 : inv1 (g_nat g);
  k_inv2 : inv2 (g_nat g);
  k_idx : ∀ p i, g_path g !! p = Some i → (i < g_next g)%nat;
  k_plain : ∀ p i, g_path g !! p = Some i → ∃ w, g_heap g !! i = Some w ∧ tw_p w = p ∧ tw_dir w = false ∧ tw_eNonDir w = 0;
  k_assoc : ∀ a p e, fm_assoc (g_nat g) !! a = Some (p, e) → fm_p2fo (g_nat g) !! p = Some a ∧ is_Some (g_path g !! p);
  k_queue : ∀ a, a ∈ (fm_queue (g_nat g)).*1 → fm_assoc (g_nat g) !! a = None ∧ ∃ p, fm_p2fo (g_nat g) !! p = Some a ∧ is_Some (g_path g !! p);
  k_nodup : NoDup (fm_queue (g_nat g)).*1;
}.
(** No association and no waiting report is for [p]. *)
Definition free_of (m : fmem) (p : str) : Prop :=
  ∀ a, fm_p2fo m !! p = Some a → fm_assoc m !! a = None ∧ a ∉ (fm_queue m).*1.
Lemma inv2_queue m a : inv2 m → a ∈ (fm_queue m).*1 → is_Some (fm_live m !! a).
Proof. intros [_ H] ([a' e] & -> & Ha)%elem_of_list_fmap. by eapply H. Qed.
Lemma free_unwatched g p : KG g → g_path g !! p = None → free_of (g_nat g) p.
Proof.
  intros K Hp a Ha. split.
  - destruct (fm_assoc (g_nat g) !! a) as [[q e]|] eqn:E; [|done].
    destruct (k_assoc g K _ _ _ E) as [H1 [i H2]].
    pose proof (proj2 (k_inv1 g K) _ _ H1). pose proof (proj2 (k_inv1 g K) _ _ Ha). congruence.
  - intros Hq. destruct (k_queue g K _ Hq) as (_ & q & H1 & [i H2]).
    pose proof (proj2 (k_inv1 g K) _ _ H1). pose proof (proj2 (k_inv1 g K) _ _ Ha). congruence.
Qed.
Lemma sublist_NoDup' {A} (l k : list A) : l `sublist_of` k → NoDup k → NoDup l.
Proof.
  induction 1 as [|x l k H IH|x l k H IH]; intros Hk; [done|..]; apply NoDup_cons in Hk as [Hx Hk]; [|by apply IH].
  apply NoDup_cons. split; [|by apply IH]. intros Hin. apply Hx. eapply elem_of_submseteq; [done|by apply sublist_submseteq].
Qed.
Lemma fmap_sublist {A B} (f : A → B) (l k : list A) : l `sublist_of` k → f <$> l `sublist_of` f <$> k.
Proof. induction 1; cbn; [done|by apply sublist_skip|by apply sublist_cons]. Qed.
(** Associating a file for which there is nothing *)
Lemma KG_associate mal g A p e m r h pa nx : malloc_ok mal → KG g → free_of (g_nat g) p →
  m_associate mal (g_nat g) A p e = (m, r) →
  (∀ q i, pa !! q = Some i → (i < nx)%nat) →
  (∀ q i, pa !! q = Some i → ∃ w, h !! i = Some w ∧ tw_p w = q ∧ tw_dir w = false ∧ tw_eNonDir w = 0) →
  (∀ q, q ≠ p → is_Some (g_path g !! q) → is_Some (pa !! q)) →
  (r = ROk → is_Some (pa !! p)) →
  KG (GS h pa nx m).
Proof.
  intros Hm K Hfr E Hidx Hpl Hpa Hok.
  pose proof (associate_inv1 mal (g_nat g) A p e Hm (k_inv1 g K)) as I1.
  pose proof (associate_inv2 mal (g_nat g) A p e Hm (k_inv2 g K)) as [I2 _].
  pose proof (associate_p2fo mal (g_nat g) A p e) as Ep. pose proof (associate_queue mal (g_nat g) A p e) as Eq.
  pose proof (fresh_live mal (g_nat g) Hm) as Hf.
  set (a' := mal (fm_n (g_nat g)) (dom (fm_live (g_nat g)))) in *.
  assert (Eas : fm_assoc m = match r with ROk => <[a' := (p, e)]> (fm_assoc (g_nat g)) | _ => fm_assoc (g_nat g) end).
  { unfold m_associate in E. fold a' in E. by destruct (a_watch A p); injection E as <- <-. }
  rewrite E in *. cbn [fst] in *.
  assert (Hold : ∀ b q, fm_p2fo (g_nat g) !! q = Some b → b ≠ a').
  { intros b q Hq ->. pose proof (proj2 (k_inv1 g K) _ _ Hq). congruence. }
  assert (Has : ∀ b q e0, fm_assoc (g_nat g) !! b = Some (q, e0) → q ≠ p).
  { intros b q e0 Hb ->. destruct (k_assoc g K _ _ _ Hb) as [H1 _]. destruct (Hfr _ H1). congruence. }
  split; cbn [g_nat g_path g_next g_heap]; try done.
  - intros b q e0 Hb. rewrite Ep.
    assert (Hcase : (b = a' ∧ q = p ∧ r = ROk) ∨ fm_assoc (g_nat g) !! b = Some (q, e0)).
    { rewrite Eas in Hb. destruct r; try (by right). apply lookup_insert_Some in Hb as [[<- [= <- <-]]|[_ Hb]]; [by left|by right]. }
    destruct Hcase as [(-> & -> & Hr)|Hb'].
    + split; [apply lookup_insert|by apply Hok].
    + pose proof (Has _ _ _ Hb') as Hne. destruct (k_assoc g K _ _ _ Hb') as [H1 H2].
      rewrite lookup_insert_ne by done. split; [done|by apply Hpa].
  - intros b. rewrite Eq. intros Hb. destruct (k_queue g K _ Hb) as (H1 & q & H2 & H3).
    assert (Hne : q ≠ p). { intros ->. by destruct (Hfr _ H2). }
    split.
    + rewrite Eas. pose proof (Hold _ _ H2). destruct r; try done. by rewrite lookup_insert_ne.
    + exists q. rewrite Ep, lookup_insert_ne by done. split; [done|by apply Hpa].
  - rewrite Eq. apply (k_nodup g K).
Qed.
Lemma KG_watch mal g A p e : malloc_ok mal → KG g → g_path g !! p = None →
  KG (g_watch (m_associate mal) g A p e false).1 ∧
  (∀ q, is_Some (g_path (g_watch (m_associate mal) g A p e false).1 !! q) → q = p ∨ is_Some (g_path g !! q)).
Proof.
  intros Hm K Hp. unfold g_watch, g_singlewatch. rewrite Hp. cbn [g_NewWatched]. unfold g_NewWatched.
  unfold g_single_do, g_upd. cbn [g_heap g_path g_next g_nat]. rewrite lookup_insert. cbv zeta.
  unfold g_Watch, g_events. cbn [g_heap g_path g_next g_nat]. rewrite insert_insert, lookup_insert.
  cbn [add_role tw_p tw_dir tw_eDir tw_eNonDir tw_fd].
  set (w := TW p false (0 .| e) 0 0). set (e' := fen_encode _ _).
  destruct (m_associate mal (g_nat g) A p e') as [m r] eqn:E. unfold g_set_nat. cbn [g_heap g_path g_next g_nat].
  pose proof (free_unwatched g p K Hp) as Hfr.
  assert (Hpl : ∀ q i, g_path g !! q = Some i → ∃ w0, <[g_next g := w]> (g_heap g) !! i = Some w0 ∧ tw_p w0 = q ∧ tw_dir w0 = false ∧ tw_eNonDir w0 = 0).
  { intros q i Hi. pose proof (k_idx g K _ _ Hi). rewrite lookup_insert_ne by lia. by apply (k_plain g K). }
  assert (Hbad : r ≠ ROk → KG (GS (<[g_next g := w]> (g_heap g)) (g_path g) (S (g_next g)) m)).
  { intros Hr. apply (KG_associate mal g A p e' m r _ _ _ Hm K Hfr E).
    - intros q i Hi. pose proof (k_idx g K _ _ Hi). lia.
    - exact Hpl.
    - done.
    - done. }
  destruct r; cbn [fst]; try (split; [by apply Hbad|by right]).
  unfold g_Record. cbn [g_heap g_path g_next g_nat]. rewrite lookup_insert. cbn [w tw_p g_path]. split.
  - apply (KG_associate mal g A p e' m ROk _ _ _ Hm K Hfr E).
    + intros q i [[<- <-]|[Hne Hi]]%lookup_insert_Some; [lia|]. pose proof (k_idx g K _ _ Hi). lia.
    + intros q i [[<- <-]|[Hne Hi]]%lookup_insert_Some; [|by apply Hpl]. exists w. by rewrite lookup_insert.
    + intros q Hne [i Hq]. exists i. by rewrite lookup_insert_ne.
    + intros _. eexists. apply lookup_insert.
  - intros q [i [[<- <-]|[Hne Hi]]%lookup_insert_Some]; [by left|by right].
Qed.
Lemma KG_unwatch mal g A p : port_fair A → KG g →
  KG (g_unwatch (m_associate mal) m_dissociate g A p false).1 ∧
  (∀ q, is_Some (g_path (g_unwatch (m_associate mal) m_dissociate g A p false).1 !! q) → is_Some (g_path g !! q)) ∧
  ((g_unwatch (m_associate mal) m_dissociate g A p false).2 = ROk → g_path (g_unwatch (m_associate mal) m_dissociate g A p false).1 !! p = None).
Proof.
  intros HA K. unfold g_unwatch, g_singleunwatch. destruct (g_path g !! p) as [i|] eqn:Hp; [|split_and!; done].
  destruct (k_plain g K _ _ Hp) as (w & Hw & Ewp & Ewd & Ewn).
  unfold g_upd. rewrite Hw. unfold g_Unwatch. cbn [g_heap g_path g_next g_nat]. rewrite lookup_insert.
  assert (Ec : tw_p (clear_role MDir w) = p) by done. rewrite Ec.
  pose proof (dissociate_inv1 (g_nat g) A p (k_inv1 g K)) as I1.
  pose proof (dissociate_inv2 (g_nat g) A p HA (k_inv1 g K) (k_inv2 g K)) as [I2 _].
  pose proof (dissociate_p2fo (g_nat g) A p) as Ep.
  assert (Hpl : ∀ q j, g_path g !! q = Some j → ∃ w0, <[i := clear_role MDir w]> (g_heap g) !! j = Some w0 ∧ tw_p w0 = q ∧ tw_dir w0 = false ∧ tw_eNonDir w0 = 0).
  { intros q j Hj. destruct (decide (j = i)) as [->|Hne].
    - rewrite lookup_insert. exists (clear_role MDir w). split; [done|]. cbn [clear_role tw_p tw_dir tw_eNonDir].
      destruct (k_plain g K _ _ Hj) as (w' & Hw' & ? & ? & ?). rewrite Hw in Hw'. injection Hw' as <-. done.
    - rewrite lookup_insert_ne by done. by apply (k_plain g K). }
  (* what remains of associations and reports is not about p *)
  assert (Hrest : ∀ pa, (∀ q j, pa !! q = Some j → g_path g !! q = Some j) → (∀ q, q ≠ p → pa !! q = g_path g !! q) →
    (fm_p2fo (g_nat g) !! p = None → pa !! p = g_path g !! p) →
    KG (GS (<[i := clear_role MDir w]> (g_heap g)) pa (g_next g) (m_dissociate (g_nat g) A p).1)).
  { intros pa Hpa1 Hpa2 Hpa3.
    assert (Hpa : ∀ q b, fm_p2fo (g_nat g) !! q = Some b → (fm_p2fo (g_nat g) !! p = Some b → False) → pa !! q = g_path g !! q).
    { intros q b Hq Hn. destruct (decide (q = p)) as [->|]; [by destruct (Hn Hq)|by apply Hpa2]. }
    split; cbn [g_heap g_path g_next g_nat]; try done.
    - intros q j Hj. apply (k_idx g K q). by apply Hpa1.
    - intros q j Hj. apply Hpl. by apply Hpa1.
    - intros b q e. rewrite Ep. unfold m_dissociate. destruct (fm_p2fo (g_nat g) !! p) as [a|] eqn:Ea.
      + rewrite HA. cbn [m_port_dissociate m_free fst fm_assoc]. intros [Hne Hb]%lookup_delete_Some.
        destruct (k_assoc g K _ _ _ Hb) as [H1 H2].
        assert (Hqp : q ≠ p) by (intros ->; congruence). rewrite lookup_delete_ne by done. by rewrite Hpa2.
      + cbn [fst]. intros Hb. destruct (k_assoc g K _ _ _ Hb) as [H1 H2].
        assert (Hqp : q ≠ p) by (intros ->; congruence). rewrite lookup_delete_ne by done. by rewrite Hpa2.
    - intros b. rewrite Ep. unfold m_dissociate. destruct (fm_p2fo (g_nat g) !! p) as [a|] eqn:Ea.
      + rewrite HA. cbn [m_port_dissociate m_free fst fm_assoc fm_queue]. intros ([b' e] & -> & Hb)%elem_of_list_fmap.
        apply elem_of_list_filter in Hb as [Hne Hb]. cbn [fst] in *.
        destruct (k_queue g K b') as (H1 & q & H2 & H3); [apply elem_of_list_fmap; by eexists (_, _)|].
        assert (Hqp : q ≠ p) by (intros ->; congruence). split; [by rewrite lookup_delete_ne|].
        exists q. rewrite lookup_delete_ne by done. by rewrite Hpa2.
      + cbn [fst]. intros Hb. destruct (k_queue g K b Hb) as (H1 & q & H2 & H3). split; [done|].
        assert (Hqp : q ≠ p) by (intros ->; congruence). exists q. rewrite lookup_delete_ne by done. by rewrite Hpa2.
    - unfold m_dissociate. destruct (fm_p2fo (g_nat g) !! p) as [a|] eqn:Ea; [|apply (k_nodup g K)].
      rewrite HA. cbn [m_port_dissociate m_free fst fm_queue].
      eapply (sublist_NoDup' _ _); [|apply (k_nodup g K)]. apply fmap_sublist, filter_sub. }
  assert (Hsame : KG (GS (<[i := clear_role MDir w]> (g_heap g)) (g_path g) (g_next g) (m_dissociate (g_nat g) A p).1)).
  { apply Hrest; done. }
  assert (Hdel : fm_p2fo (g_nat g) !! p ≠ None → KG (GS (<[i := clear_role MDir w]> (g_heap g)) (delete p (g_path g)) (g_next g) (m_dissociate (g_nat g) A p).1)).
  { intros Hn. apply Hrest; [|intros; by rewrite lookup_delete_ne|done]. by intros q j [_ Hj]%lookup_delete_Some. }
  assert (Hr : (m_dissociate (g_nat g) A p).2 = ROk → fm_p2fo (g_nat g) !! p ≠ None).
  { unfold m_dissociate. by destruct (fm_p2fo (g_nat g) !! p). }
  clear Hrest. destruct (m_dissociate (g_nat g) A p) as [m r]. cbn [fst snd] in *. unfold g_set_nat. cbn [g_heap g_path g_next g_nat].
  destruct r; try (split_and!; done).
  rewrite lookup_insert.
  assert (Ez : nonzero (tw_e (clear_role MDir w)) = false) by (unfold tw_e; cbn [clear_role tw_eDir tw_eNonDir]; by rewrite Ewn).
  rewrite Ez. unfold g_Del. cbn [g_heap g_path g_next g_nat]. rewrite lookup_insert, Ec. cbn [fst snd g_path].
  split_and!.
  - apply Hdel. by apply Hr.
  - intros q [j [_ Hj]%lookup_delete_Some]. by exists j.
  - intros _. apply lookup_delete.
Qed.
Lemma KG_del g p i w : KG g → free_of (g_nat g) p → g_heap g !! i = Some w → tw_p w = p → KG (g_Del g i).
Proof.
  intros K Hfr Hi <-. unfold g_Del. rewrite Hi.
  assert (Hq : ∀ q, q ≠ tw_p w → delete (tw_p w) (g_path g) !! q = g_path g !! q) by (intros; by rewrite lookup_delete_ne).
  split; cbn [g_heap g_path g_next g_nat]; try apply K.
  - intros q j [_ Hj]%lookup_delete_Some. by apply (k_idx g K q).
  - intros q j [_ Hj]%lookup_delete_Some. by apply (k_plain g K q).
  - intros a q e Ha. destruct (k_assoc g K _ _ _ Ha) as [H1 H2]. split; [done|]. rewrite Hq; [done|].
    intros ->. destruct (Hfr _ H1). congruence.
  - intros a Ha. destruct (k_queue g K _ Ha) as (H1 & q & H2 & H3). split; [done|]. exists q. split; [done|].
    rewrite Hq; [done|]. intros ->. by destruct (Hfr _ H2).
Qed.
Lemma path_Del {S} (g : gst S) i q : is_Some (g_path (g_Del g i) !! q) → is_Some (g_path g !! q).
Proof.
  unfold g_Del. destruct (g_heap g !! i); [|done]. cbn [g_path]. intros [j [_ Hj]%lookup_delete_Some]. by exists j.
Qed.
Lemma KG_process mal g st A ord p ge : malloc_ok mal → KG g → free_of (g_nat g) p →
  KG (g_process (m_associate mal) m_dissociate g st A ord p ge).1 ∧
  (∀ q, is_Some (g_path (g_process (m_associate mal) m_dissociate g st A ord p ge).1 !! q) → is_Some (g_path g !! q)).
Proof.
  intros Hm K Hfr. unfold g_process. destruct (g_path g !! p) as [i|] eqn:Hp; [|done].
  destruct (k_plain g K _ _ Hp) as (w & Hw & Ewp & Ewd & Ewn). rewrite Hw, Ewd. cbv zeta. cbn [negb orb].
  rewrite andb_true_r.
  assert (Hd : KG (g_Del g i)) by by eapply KG_del.
  destruct (decide (ge .& (FileRenameFrom .| FileDelete) = 0)) as [Hge|Hge].
  - rewrite Hge. cbn [N.eqb nonzero negb]. change (nonzero 0) with false. cbn iota.
    set (g1 := match st with Some d => _ | None => g end).
    assert (H : KG g1 ∧ (∀ q, is_Some (g_path g1 !! q) → is_Some (g_path g !! q))).
    { unfold g1. destruct st as [d|]; [|done]. unfold g_Watch. rewrite Hw, Ewp.
      destruct (m_associate mal (g_nat g) A p (fen_encode (tw_e w) d)) as [m r] eqn:E. unfold g_set_nat.
      assert (Hbad : r ≠ ROk → KG (g_Del (GS (g_heap g) (g_path g) (g_next g) m) i) ∧
        (∀ q, is_Some (g_path (g_Del (GS (g_heap g) (g_path g) (g_next g) m) i) !! q) → is_Some (g_path g !! q))).
      { intros Hr. split; [|intros q Hq; by apply (path_Del _ i q Hq)].
        unfold g_Del. cbn [g_heap g_path g_next g_nat]. rewrite Hw, Ewp.
        apply (KG_associate mal g A p (fen_encode (tw_e w) d) m r _ _ _ Hm K Hfr E).
        - intros q j [_ Hj]%lookup_delete_Some. by apply (k_idx g K q).
        - intros q j [_ Hj]%lookup_delete_Some. by apply (k_plain g K q).
        - intros q Hne. by rewrite lookup_delete_ne.
        - done. }
      destruct r; try (by apply Hbad). split; [|done].
      apply (KG_associate mal g A p (fen_encode (tw_e w) d) m ROk _ _ _ Hm K Hfr E).
      - apply (k_idx g K).
      - apply (k_plain g K).
      - done.
      - intros _. by exists i. }
    destruct (_ =? 0); exact H.
  - replace (ge .& (FileRenameFrom .| FileDelete) =? 0) with false by (symmetry; by apply N.eqb_neq).
    destruct (_ =? 0); [done|]. cbn [fst]. destruct (nonzero (ge .& (FileRenameFrom .| FileDelete))); cbn [negb];
      (split; [done|]); intros q; first [apply path_Del|done].
Qed.
Definition gotp_since (tr : list flabel) : Prop :=
  ∃ i l, tr !! i = Some l ∧ is_get l ∧ ∀ k l', (i < k)%nat → tr !! k = Some l' → ¬ is_process l'.
Lemma gotp_app tr l : gotp_since tr → ¬ is_process l → gotp_since (tr ++ [l]).
Proof.
  intros (i & l0 & Hi & Hg & H) Hl. exists i, l0. split; [by apply lookup_app_l_Some|]. split; [done|].
  intros k l' Hk Hk'. apply lookup_app_Some in Hk' as [Hk'|[Hk1 Hk2]]; [by eapply H|].
  apply list_lookup_singleton_Some in Hk2 as [_ <-]. done.
Qed.
Lemma gotp_disturbed tr l : gotp_since tr → is_call l → ¬ between_events (tr ++ [l]).
Proof.
  intros (i & l0 & Hi & Hg & H) Hl Hu.
  destruct (Hu i (length tr) l0 l) as (k & l'' & Hk & Hk' & Hr).
  - by eapply lookup_lt_Some.
  - by apply lookup_app_l_Some.
  - done.
  - by apply list_lookup_middle.
  - done.
  - rewrite lookup_app_l in Hk' by lia. eapply H; [|exact Hk'|exact Hr]. lia.
Qed.
Lemma between_app tr tr' : between_events (tr ++ tr') → between_events tr.
Proof.
  intros H i j l l' Hij Hi Hl Hj Hl'.
  destruct (H i j l l' Hij) as (k & l'' & Hk & Hk' & Hr); [by apply lookup_app_l_Some|done|by apply lookup_app_l_Some|done|].
  exists k, l''. split; [done|]. split; [|done]. rewrite lookup_app_l in Hk'; [done|]. apply lookup_lt_Some in Hj. lia.
Qed.
Lemma once_app tr tr' : watched_once (tr ++ tr') → watched_once tr.
Proof.
  intros H p i j l l' Hij Hi Hl Hj Hl'.
  destruct (H p i j l l' Hij) as (k & l'' & Hk & Hk' & Hr); [by apply lookup_app_l_Some|done|by apply lookup_app_l_Some|done|].
  exists k, l''. split; [done|]. split; [|done]. rewrite lookup_app_l in Hk'; [done|]. apply lookup_lt_Some in Hj. lia.
Qed.
Definition up_since (tr : list flabel) (p : str) : Prop :=
  ∃ i l, tr !! i = Some l ∧ sets_up p l ∧ ∀ k l', (i < k)%nat → tr !! k = Some l' → ¬ takes_down p l'.
Lemma up_app tr l p : up_since tr p → ¬ takes_down p l → up_since (tr ++ [l]) p.
Proof.
  intros (i & l0 & Hi & Hg & H) Hl. exists i, l0. split; [by apply lookup_app_l_Some|]. split; [done|].
  intros k l' Hk Hk'. apply lookup_app_Some in Hk' as [Hk'|[Hk1 Hk2]]; [by eapply H|].
  apply list_lookup_singleton_Some in Hk2 as [_ <-]. done.
Qed.
Lemma up_new tr l p : sets_up p l → up_since (tr ++ [l]) p.
Proof.
  intros Hl. exists (length tr), l. split; [by apply list_lookup_middle|]. split; [done|].
  intros k l' Hk Hk'. apply lookup_lt_Some in Hk'. rewrite app_length in Hk'. cbn in Hk'. lia.
Qed.
Lemma up_twice tr l p : up_since tr p → watches p l → ¬ watched_once (tr ++ [l]).
Proof.
  intros (i & l0 & Hi & Hg & H) Hl Hu.
  destruct (Hu p i (length tr) l0 l) as (k & l'' & Hk & Hk' & Hr).
  - by eapply lookup_lt_Some.
  - by apply lookup_app_l_Some.
  - done.
  - by apply list_lookup_middle.
  - done.
  - rewrite lookup_app_l in Hk' by lia. eapply H; [|exact Hk'|exact Hr]. lia.
Qed.
Definition mon_ok (s : fsys) : Prop :=
  match f_mon s with
  | MIdle => True
  | MGot a _ => fm_assoc (f_mem s) !! a = None ∧ a ∉ (fm_queue (f_mem s)).*1 ∧ ∃ p, fm_p2fo (f_mem s) !! p = Some a
  | MHas p _ => free_of (f_mem s) p
  end.
Definition few_hits (l : flabel) : Prop := match l with FChange _ _ hits => (length hits ≤ 1)%nat | _ => True end.
Lemma once_inv tr s : fexec tr s → Forall label_fair tr → Forall plain_label tr → between_events tr → watched_once tr →
  KG (f_g s) ∧ mon_ok s ∧ (f_mon s ≠ MIdle → gotp_since tr) ∧ (∀ p, is_Some (g_path (f_g s) !! p) → up_since tr p) ∧ Forall few_hits tr.
Proof.
  induction 1 as [|tr s mal l s' Hx IH Hm Hst]; intros Hfair Hplain Hb Ho.
  { split_and!; try done.
    - split; cbn [f_init f_g g_nat g_path g_next g_heap fm_init fm_queue fm_assoc fm_p2fo].
      + split; [done|]. intros p a H. cbn in H. by apply lookup_empty_Some in H.
      + split; [|by intros ?? ?%elem_of_nil]. intros a p e H. cbn in H. by apply lookup_empty_Some in H.
      + intros p i H. by apply lookup_empty_Some in H.
      + intros p i H. by apply lookup_empty_Some in H.
      + intros a p e H. by apply lookup_empty_Some in H.
      + by intros ? ?%elem_of_nil.
      + apply NoDup_nil_2.
    - intros p [i H]. cbn in H. by apply lookup_empty_Some in H. }
  apply Forall_app in Hfair as [Hfair Hlf]. apply Forall_cons_1 in Hlf as [Hlf _].
  apply Forall_app in Hplain as [Hplain Hlp]. apply Forall_cons_1 in Hlp as [Hlp _].
  destruct (IH Hfair Hplain (between_app _ _ Hb) (once_app _ _ Ho)) as (K & Hmon & Hgot & Hup & Hfew). clear IH.
  assert (Hidle : is_call l → f_mon s = MIdle).
  { intros Hc. destruct (f_mon s) eqn:E; [done|..]; (destruct (gotp_disturbed tr l); [by apply Hgot|done|done]). }
  assert (Hfew' : few_hits l → Forall few_hits (tr ++ [l])).
  { intros Hl. apply Forall_app. split; [done|]. apply Forall_cons_2; [done|apply Forall_nil_2]. }
  assert (Hcall : is_call l → f_mon s' = f_mon s → KG (f_g s') → (∀ q, is_Some (g_path (f_g s') !! q) → up_since (tr ++ [l]) q) →
    KG (f_g s') ∧ mon_ok s' ∧ (f_mon s' ≠ MIdle → gotp_since (tr ++ [l])) ∧ (∀ p, is_Some (g_path (f_g s') !! p) → up_since (tr ++ [l]) p) ∧ Forall few_hits (tr ++ [l])).
  { intros Hc Em HK Hq. specialize (Hidle Hc). split_and!; try done.
    - unfold mon_ok. by rewrite Em, Hidle.
    - by rewrite Em, Hidle.
    - apply Hfew'. by destruct l. }
  destruct Hst as [st A p e g r E|st A p g r E|st A A' p e g r E|p ge hits Hh|a ge q Hi Hq|a ge p Hi Hp|st A ord p ge g evn Hi Hor E].
  - (* Watch *)
    destruct st as [[]|]; [done| |].
    + assert (Hn : g_path (f_g s) !! p = None).
      { destruct (g_path (f_g s) !! p) as [j|] eqn:Ep; [|done].
        destruct (up_twice tr (FWatch (Some false) A p e r) p); [apply Hup; by exists j|done|done]. }
      destruct (KG_watch mal (f_g s) A p e Hm K Hn) as [K1 K2]. cbn [g_trg_Watch] in E. rewrite E in K1, K2. cbn [fst] in K1, K2.
      apply Hcall; [done|done|done|]. cbn [f_g]. intros q [->|Hq]%K2; [by apply up_new|]. apply up_app; [by apply Hup|]. cbn. tauto.
    + cbn [g_trg_Watch] in E. injection E as <- <-. apply Hcall; [done|done|done|].
      cbn [f_g]. intros q Hq. apply up_app; [by apply Hup|]. cbn. tauto.
  - (* Unwatch *)
    assert (Hu : st = Some false → KG g ∧ (∀ q, is_Some (g_path g !! q) → is_Some (g_path (f_g s) !! q)) ∧ (r = ROk → g_path g !! p = None)).
    { intros ->. cbn [g_trg_Unwatch] in E. pose proof (KG_unwatch mal (f_g s) A p Hlf K) as Hu. by rewrite E in Hu. }
    destruct st as [[]|]; [done| |].
    + destruct (Hu eq_refl) as (K1 & K2 & K3). apply Hcall; [done|done|done|].
      cbn [f_g]. intros q Hq. apply up_app; [by apply Hup, K2|]. cbn [takes_down]. intros [<- Hr].
      rewrite (K3 Hr) in Hq. by destruct Hq.
    + cbn [g_trg_Unwatch] in E. injection E as <- <-. apply Hcall; [done|done|done|].
      cbn [f_g]. intros q Hq. apply up_app; [by apply Hup|]. cbn [takes_down]. by intros [? ?].
  - (* Rewatch *)
    destruct Hlf as [HfA HfA'].
    destruct st as [[]|]; [done| |].
    + cbn [g_trg_Rewatch] in E. destruct (KG_unwatch mal (f_g s) A p HfA K) as (K1 & K2 & K3).
      destruct (g_unwatch _ _ _ _ _ _) as [g1 r1]. cbn [fst snd] in *.
      assert (Hg : KG g ∧ ∀ q, is_Some (g_path g !! q) → q = p ∨ is_Some (g_path (f_g s) !! q)).
      { destruct r1; try (injection E as <- <-; split; [done|]; intros q Hq; right; by apply K2).
        injection E as <- <-. destruct (KG_watch mal g1 A' p e Hm K1 (K3 eq_refl)) as [K4 K5]. split; [done|].
        intros q [->|Hq]%K5; [by left|right; by apply K2]. }
      destruct Hg as [Hg1 Hg2]. apply Hcall; [done|done|done|]. cbn [f_g].
      intros q [->|Hq]%Hg2; [by apply up_new|]. apply up_app; [by apply Hup|]. cbn. tauto.
    + cbn [g_trg_Rewatch] in E. injection E as <- <-. apply Hcall; [done|done|done|].
      cbn [f_g]. intros q Hq. apply up_app; [by apply Hup|]. cbn. tauto.
  - (* change *)
    clear Hcall Hidle.
    assert (Hin : ∀ x, x ∈ hits → x.2.1 = p ∧ fm_assoc (f_mem s) !! x.1 = Some x.2 ∧ hit p ge x).
    { intros [b' [q mk]] Hbx. rewrite Hh in Hbx. apply elem_of_list_filter in Hbx as [H1 H2]. apply elem_of_map_to_list in H2.
      split; [by destruct H1|by split]. }
    assert (Hnd : NoDup hits.*1).
    { rewrite Hh. eapply (sublist_NoDup' _ _); [apply fmap_sublist, filter_sub|]. apply NoDup_fst_map_to_list. }
    assert (Hpp : ∀ x, x ∈ hits → fm_p2fo (f_mem s) !! p = Some x.1).
    { intros x Hxi. destruct (Hin x Hxi) as (H1 & H2 & _). destruct x as [b' [q mk]]. cbn [fst snd] in *. subst q.
      by destruct (k_assoc _ K _ _ _ H2). }
    assert (Hmap : ((λ x : addr * (str * N), (x.1, ge .& (x.2.2 .| fen_always))) <$> hits).*1 = hits.*1).
    { rewrite <-list_fmap_compose. done. }
    unfold mon_ok, set_mem, f_mem, g_set_nat. cbn [f_g f_mon g_nat g_heap g_path g_next fm_assoc fm_queue fm_p2fo].
    change (g_nat (f_g s)) with (f_mem s). split_and!.
    + split; cbn [g_nat g_heap g_path g_next]; try apply K.
      * destruct (k_inv2 _ K) as [J1 J2]. split; cbn [fm_assoc fm_queue fm_live].
        -- intros b' q mk [Hb' _]%map_filter_lookup_Some. by eapply J1.
        -- intros b' e [Hb'|Hb']%elem_of_app; [by eapply J2|].
           apply elem_of_list_fmap in Hb' as ([b'' [q mk]] & [= -> ->] & Hb'). destruct (Hin _ Hb') as (_ & H2 & _). eexists. by eapply J1.
      * cbn [fm_assoc fm_p2fo]. intros b' q mk [Hb' _]%map_filter_lookup_Some. by apply (k_assoc _ K _ _ mk).
      * cbn [fm_assoc fm_queue fm_p2fo]. rewrite fmap_app, Hmap. intros b' [Hb'|Hb']%elem_of_app.
        -- destruct (k_queue _ K _ Hb') as (H1 & H2). split; [|exact H2].
           apply map_filter_lookup_None. by left.
        -- apply elem_of_list_fmap in Hb' as (x & -> & Hxi). destruct (Hin x Hxi) as (H1 & H2 & H3). split.
           ++ apply map_filter_lookup_None. right. intros y Hy. rewrite H2 in Hy. injection Hy as <-. intros Hn. apply Hn.
              by destruct x.
           ++ exists p. split; [by apply Hpp|]. destruct x as [b'' [q mk]]. cbn [fst snd] in *. subst q.
              by destruct (k_assoc _ K _ _ _ H2).
      * cbn [fm_queue]. rewrite fmap_app, Hmap. apply NoDup_app. split; [apply (k_nodup _ K)|]. split; [|exact Hnd].
        intros b' Hb' Hb2. apply elem_of_list_fmap in Hb2 as (x & -> & Hxi). destruct (Hin x Hxi) as (H1 & H2 & H3).
        destruct (k_queue _ K _ Hb') as (H4 & _). unfold f_mem in H2. congruence.
    + unfold mon_ok in Hmon. destruct (f_mon s) as [|a0 ge0|p0 ge0]; [done|..].
      * destruct Hmon as (H1 & H2 & H3). split_and!; [|..|done].
        -- apply map_filter_lookup_None. by left.
        -- rewrite fmap_app, Hmap. intros [Hb'|Hb']%elem_of_app; [done|].
           apply elem_of_list_fmap in Hb' as (x & -> & Hxi). destruct (Hin x Hxi) as (_ & H4 & _). congruence.
      * intros a0 Ha0. cbn [fm_p2fo fm_assoc fm_queue] in *. destruct (Hmon _ Ha0) as [H1 H2]. split.
        -- apply map_filter_lookup_None. by left.
        -- rewrite fmap_app, Hmap. intros [Hb'|Hb']%elem_of_app; [done|].
           apply elem_of_list_fmap in Hb' as (x & -> & Hxi). destruct (Hin x Hxi) as (_ & H4 & _). congruence.
    + intros Hne. apply gotp_app; [by apply Hgot|]. cbn. tauto.
    + intros q Hq. apply up_app; [by apply Hup|]. cbn. tauto.
    + apply Hfew'. cbn [few_hits]. destruct hits as [|x [|y hits]]; [cbn; lia|cbn; lia|].
      exfalso. assert (Ex := Hpp x ltac:(left)). assert (Ey := Hpp y ltac:(right; left)).
      rewrite Ex in Ey. injection Ey as Ey. apply NoDup_cons in Hnd as [Hnd _]. apply Hnd. rewrite Ey. left.
  - (* get *)
    clear Hcall Hidle. pose proof (k_nodup _ K) as Hnd. unfold f_mem in Hq. rewrite Hq in Hnd. cbn [fmap list_fmap fst] in Hnd.
    apply NoDup_cons in Hnd as [Hnd1 Hnd2].
    destruct (k_queue _ K a) as (H1 & p & H2 & H3); [rewrite Hq; left|].
    unfold mon_ok, set_mem, f_mem, g_set_nat. cbn [f_g f_mon g_nat g_heap g_path g_next fm_assoc fm_queue fm_p2fo].
    change (g_nat (f_g s)) with (f_mem s). split_and!.
    + split; cbn [g_nat g_heap g_path g_next]; try apply K.
      * destruct (k_inv2 _ K) as [J1 J2]. split; cbn [fm_assoc fm_queue fm_live]; [exact J1|].
        intros b' e Hb'. eapply J2. rewrite Hq. by right.
      * cbn [fm_queue fm_assoc fm_p2fo]. intros b' Hb'. apply (k_queue _ K). rewrite Hq. by right.
      * done.
    + done.
    + done.
    + by exists p.
    + intros _. exists (length tr), (FGet a ge). split; [by apply list_lookup_middle|]. split; [done|].
      intros k l' Hk Hk'. apply lookup_lt_Some in Hk'. rewrite app_length in Hk'. cbn in Hk'. lia.
    + intros q' Hq'. apply up_app; [by apply Hup|]. cbn. tauto.
    + by apply Hfew'.
  - (* read *)
    unfold mon_ok in Hmon. rewrite Hi in Hmon. destruct Hmon as (H1 & H2 & q & H3).
    pose proof (proj2 (k_inv1 _ K) _ _ H3) as H4. specialize (Hp _ H4) as ->.
    unfold mon_ok. cbn [f_g f_mon]. split_and!; [done|..].
    + intros a' Ha'. unfold f_mem in *. cbn [f_g] in *. rewrite H3 in Ha'. by injection Ha' as <-.
    + intros _. apply gotp_app; [apply Hgot; by rewrite Hi|]. cbn. tauto.
    + intros q' Hq'. apply up_app; [by apply Hup|]. cbn. tauto.
    + by apply Hfew'.
  - (* process *)
    unfold mon_ok in Hmon. rewrite Hi in Hmon.
    destruct (KG_process mal (f_g s) st A ord p ge Hm K Hmon) as [K1 K2]. rewrite E in K1, K2. cbn [fst] in K1, K2.
    unfold mon_ok. cbn [f_g f_mon]. split_and!; [done|done|done|..].
    + intros q' Hq'. apply up_app; [by apply Hup, K2|]. cbn. tauto.
    + by apply Hfew'.
Qed.
(** Proved for files that are no directories, each given to Watch once until it is unwatched,
    and calls that do not come between an event and its processing: a change is reported at
    most once.  Missing: directories, whose rescans associate files again
    ([C77_twice_refuted]). *)
Theorem C77_once_partial tr s p ge hits : fexec tr s → Forall label_fair tr → Forall plain_label tr →
  between_events tr → watched_once tr → FChange p ge hits ∈ tr → (length hits ≤ 1)%nat.
Proof.
  intros Hx H1 H2 H3 H4 Hin. destruct (once_inv tr s Hx H1 H2 H3 H4) as (_ & _ & _ & _ & H).
  rewrite Forall_forall in H. apply (H _ Hin).
Qed.

(** ** A concrete case *)
Definition tag (l : flabel) : nat * str * bool * bool :=
  (label_kind l, match l with FWatch _ _ p _ _ | FUnwatch _ _ p _ | FRewatch _ _ _ p _ _ => p | _ => [] end,
   match l with FUnwatch _ _ _ ROk => true | _ => false end,
   match l with FWatch (Some true) _ _ _ _ | FUnwatch (Some true) _ _ _ | FRewatch (Some true) _ _ _ _ _ => true | _ => false end).
Definition plain_cmds : list fcmd :=
  [KWatch (Some false) (yes fx_ls) fx_x (Write fen); KChange fx_x FileModified; KGet; KRead []; KProcess (Some false) (yes fx_ls);
   KUnwatch (Some false) (yes fx_ls) fx_x; KWatch (Some false) (yes fx_ls) fx_x (Write fen);
   KChange fx_x FileModified; KGet; KRead []; KProcess (Some false) (yes fx_ls)].
Definition plain_tags : list (nat * str * bool * bool) :=
  [(0, fx_x, false, false); (3, [], false, false); (4, [], false, false); (5, [], false, false); (6, [], false, false);
   (1, fx_x, true, false); (0, fx_x, false, false);
   (3, [], false, false); (4, [], false, false); (5, [], false, false); (6, [], false, false)]%nat.
(** A file is watched, written to, unwatched, watched again and written to again: the
    hypotheses of [C77_names] and [C77_once_partial]. *)
Example C77_plain_hyps : ∃ tr s, fexec tr s ∧ Forall label_fair tr ∧ Forall plain_label tr ∧ undisturbed tr ∧ between_events tr ∧ watched_once tr ∧
  taken tr = [(fx_x, FileModified); (fx_x, FileModified)] ∧ length (changes tr) = 2%nat.
Proof.
  destruct (frun_some plain_cmds (λ x, (taken x.1, length (changes x.1), tag <$> x.1))
    ([(fx_x, FileModified); (fx_x, FileModified)], 2%nat, plain_tags)) as (tr & s & Hr & Hx & E).
  { by vm_compute. }
  injection E as E1 E2 E3. cbn [fst] in E1, E2, E3. exists tr, s. split; [exact Hx|].
  assert (Hf : Forall label_fair tr).
  { eapply frun_fair; [exact Hr| |apply Forall_nil_2]. clear. repeat (apply Forall_cons_2; [done|]). apply Forall_nil_2. }
  clear Hr Hx.
  assert (Ht : ∀ i l, tr !! i = Some l → plain_tags !! i = Some (tag l)).
  { intros i l Hi. rewrite <-E3, list_lookup_fmap, Hi. done. }
  assert (Hl : ∀ i t, plain_tags !! i = Some t → ∃ l, tr !! i = Some l ∧ tag l = t).
  { intros i t. rewrite <-E3. intros (l & -> & ?)%list_lookup_fmap_Some. by exists l. }
  clear E3.
  assert (Hcase : ∀ i l, tr !! i = Some l → (is_get l → i = 2 ∨ i = 8)%nat ∧ (is_call l → i = 0 ∨ i = 5 ∨ i = 6)%nat).
  { intros i l Hi%Ht. split; intros H.
    - do 11 (destruct i as [|i]; [first [lia|injection Hi as Hi; by destruct l]|]). done.
    - do 11 (destruct i as [|i]; [first [lia|injection Hi as Hi; by destruct l]|]). done. }
  split_and!; [exact Hf| | | | |exact E1|exact E2].
  - apply Forall_lookup_2. intros i l Hi%Ht. destruct l as [[[]|]|[[]|]|[[]|]| | | |]; try done;
      do 11 (destruct i as [|i]; [by injection Hi|]); done.
  - intros i j l l' Hij Hi Hg Hj Hc. destruct (proj1 (Hcase _ _ Hi) Hg) as [->| ->], (proj2 (Hcase _ _ Hj) Hc) as [->|[->| ->]]; try lia.
    all: destruct (Hl 3%nat _ eq_refl) as (l3 & H3 & Et); exists 3%nat, l3; split; [lia|]; split; [done|]; by destruct l3.
  - intros i j l l' Hij Hi Hg Hj Hc. destruct (proj1 (Hcase _ _ Hi) Hg) as [->| ->], (proj2 (Hcase _ _ Hj) Hc) as [->|[->| ->]]; try lia.
    all: destruct (Hl 4%nat _ eq_refl) as (l3 & H3 & Et); exists 4%nat, l3; split; [lia|]; split; [done|]; by destruct l3.
  - intros p i j l l' Hij Hi Hs Hj Hw.
    assert (Hc : is_call l) by by destruct l. assert (Hc' : is_call l') by by destruct l'.
    assert (Hj' : j ≠ 5%nat). { intros ->. apply Ht in Hj. injection Hj as Hj. by destruct l'. }
    assert (Hi' : i ≠ 5%nat). { intros ->. apply Ht in Hi. injection Hi as Hi. by destruct l. }
    destruct (proj2 (Hcase _ _ Hi) Hc) as [->|[->| ->]], (proj2 (Hcase _ _ Hj) Hc') as [->|[->| ->]]; try lia; try done.
    destruct (Hl 5%nat _ eq_refl) as (l5 & H5 & Et). exists 5%nat, l5. split; [lia|]. split; [done|].
    apply Ht in Hi. apply (f_equal (λ o, (default (0%nat, [], false, false) o).1.1.2)) in Hi.
    assert (Hr5 : takes_down fx_x l5).
    { destruct l5 as [|st A q r| | | | |]; try done. pose proof (f_equal (λ t, t.1.1.2) Et) as Eq. pose proof (f_equal (λ t, t.1.2) Et) as Er.
      cbn in Eq, Er. destruct r; try done. }
    replace p with fx_x; [done|].
    destruct l as [? ? q' ? ?| |? ? ? q' ? ?| | | |]; try done; cbn [sets_up] in Hs; rewrite <-Hs; exact Hi.
Qed.
