(** * TriggerScan: what the rescan of a directory reports. *)
From Verif Require Import Base Event Paths Clean Trigger SpecTrigger TriggerFacts TriggerTab TriggerRun TriggerRoles.
From Verif Require Import SpecClean CleanFacts PathsFacts.
From Verif Require InotifyTab.
Local Open Scope N_scope.

Section scan.
Context (T : trig).

Definition res_finding (f : finding) : res :=
  match f with Known => RAlready | Found | Ignored => ROk | Gone => RNotExist | Failed => RErr end.
Lemma in_table_path s q : tinv T s → in_table s q = bool_decide (is_Some (ts_path s !! q)).
Proof.
  intros Hi. unfold in_table. apply bool_decide_ext. destruct (ts_path s !! q) as [i|] eqn:E.
  - destruct (ti_path _ _ Hi q i E) as (w&Hw&_). rewrite (tw_at_eq s q i w E Hw). split; eauto.
  - apply (tw_at_None T s q Hi) in E. rewrite E. split; by intros [? ?].
Qed.
Lemma singlewatch_finding s A q e m d : tinv T s → (singlewatch T s A q e m d).2 = res_finding (finding_of T A (in_table s q) q).
Proof.
  intros Hi. rewrite (in_table_path s q Hi). destruct (ts_path s !! q) as [i|] eqn:E.
  - destruct (ti_path _ _ Hi q i E) as (w&Hw&_). rewrite (singlewatch_known T s A q e m d i w Hi E Hw).
    unfold finding_of. cbn. by destruct (a_watch A q).
  - rewrite (singlewatch_new T s A q e m d E). unfold finding_of, opens. cbn.
    destruct (t_fds T); [destruct (a_new A q)|]; cbn; try done; by destruct (a_watch A q).
Qed.
Lemma rescan1_events A w s evn fi : tinv T s →
  (rescan1 T A w (s, evn) fi).2 = evn ++ scan_event T (tw_eDir w) (tw_p w) fi (finding_of T A (in_table s (join (tw_p w) (fi_name fi))) (join (tw_p w) (fi_name fi))).
Proof.
  intros Hi. unfold rescan1. set (q := join (tw_p w) (fi_name fi)).
  pose proof (singlewatch_finding s A q (tw_eDir w) MNDir (fi_dir fi) Hi) as H. destruct (singlewatch T s A q (tw_eDir w) MNDir (fi_dir fi)) as [s1 r].
  cbn [snd] in H. rewrite H. cbn [snd]. set (f := finding_of T A (in_table s q) q). clearbody f. fold q.
  assert (∀ x : N, nonzero x = bool_decide (x ≠ 0)) as K.
  { intros x. destruct (N.eqb_spec x 0) as [->|Hx]; cbn; [done|]. by rewrite bool_decide_eq_true_2. }
  destruct f; unfold scan_event; fold q; cbn [res_finding]; rewrite ?bool_decide_eq_true_2, ?bool_decide_eq_false_2 by done; cbn [andb];
    rewrite ?app_nil_r; try done; rewrite ?K; repeat case_decide; rewrite ?bool_decide_eq_true_2, ?bool_decide_eq_false_2 by (by try intros ?);
    rewrite ?app_nil_r; done.
Qed.
Lemma in_table_same s s' q : same_at T s s' q → in_table s' q = in_table s q.
Proof. intros [_ H _]. unfold in_table. by rewrite H. Qed.
Lemma rescan1_same A w s evn fi s' evn' q : tinv T s → fresh_fd A → rescan1 T A w (s, evn) fi = (s', evn') → join (tw_p w) (fi_name fi) ≠ q → same_at T s s' q.
Proof.
  intros Hi HA H Hne. unfold rescan1 in H. destruct (singlewatch T s A _ _ _ _) as [s1 r1] eqn:E. apply pair_equal_spec in H as [<- _]. by eapply singlewatch_same.
Qed.
Lemma rescan_events A w ls s evn s' evn' : tinv T s → fresh_fd A → NoDup (entries (tw_p w) ls) → foldl (rescan1 T A w) (s, evn) ls = (s', evn') →
  evn' = evn ++ (ls ≫= λ fi, scan_event T (tw_eDir w) (tw_p w) fi (finding_of T A (in_table s (join (tw_p w) (fi_name fi))) (join (tw_p w) (fi_name fi)))).
Proof.
  intros Hi HA. revert s evn Hi. induction ls as [|fi ls IH]; intros s evn Hi Hnd H; cbn [foldl] in H.
  - apply pair_equal_spec in H as [_ <-]. by rewrite app_nil_r.
  - unfold entries in Hnd. rewrite fmap_cons in Hnd. apply NoDup_cons in Hnd as [Hni Hnd].
    pose proof (rescan1_events A w s evn fi Hi) as He. destruct (rescan1 T A w (s, evn) fi) as [s1 evn1] eqn:E. cbn [snd] in He.
    assert (tinv T s1) as H1 by (by eapply rescan1_inv). rewrite (IH s1 evn1 H1 Hnd H), He. rewrite <-app_assoc. f_equal. cbn [mbind list_bind].
    f_equal. apply Forall_bind_ext, Forall_forall. intros x Hx. rewrite (in_table_same s s1); [done|].
    eapply rescan1_same; [done|done|exact E|]. intros Heq. apply Hni. rewrite Heq. apply elem_of_list_fmap. by exists x.
Qed.
Lemma rescan_same A w ls s evn s' evn' q : tinv T s → fresh_fd A → foldl (rescan1 T A w) (s, evn) ls = (s', evn') → q ∉ entries (tw_p w) ls → same_at T s s' q.
Proof.
  intros Hi HA. revert s evn Hi. induction ls as [|fi ls IH]; intros s evn Hi H Hq; cbn [foldl] in H.
  - apply pair_equal_spec in H as [<- _]. apply same_refl.
  - unfold entries in Hq. rewrite fmap_cons in Hq. apply not_elem_of_cons in Hq as [Hne Hq]. destruct (rescan1 T A w (s, evn) fi) as [s1 evn1] eqn:E.
    eapply same_trans; [eapply rescan1_same; [done|done|exact E|done]|]. eapply IH; [by eapply rescan1_inv|exact H|done].
Qed.
(** What is known of an entry after the rescan *)
Definition scanned (A : answers) (e : N) (s s' : tstate) (fi : finfo) (q : str) : Prop :=
  match finding_of T A (in_table s q) q with
  | Known | Found =>
      ∃ x, tw_at s' q = Some x ∧ tw_eDir x = direct_at s q ∧ tw_eNonDir x = member_at s q .| e ∧
           reg_at T s' q = Some (t_encode T (tw_e x) (fi_dir fi))
  | Ignored => tw_at s' q = None
  | Gone | Failed => in_table s' q = in_table s q
  end.
Lemma scanned_same A e s s1 s2 fi q : same_at T s1 s2 q → scanned A e s s1 fi q → scanned A e s s2 fi q.
Proof. intros [_ H1 H2] H. unfold scanned, in_table in *. by rewrite H1, H2. Qed.
Lemma scanned_before A e s0 s s' fi q : same_at T s0 s q → scanned A e s s' fi q → scanned A e s0 s' fi q.
Proof. intros [_ H1 H2] H. unfold scanned, in_table, direct_at, member_at in *. rewrite H1 in H. done. Qed.
Lemma rescan1_scanned A w s evn fi s' evn' : tinv T s → fresh_fd A → rescan1 T A w (s, evn) fi = (s', evn') →
  scanned A (tw_eDir w) s s' fi (join (tw_p w) (fi_name fi)).
Proof.
  intros Hi HA H. unfold rescan1 in H. set (q := join (tw_p w) (fi_name fi)) in *.
  destruct (singlewatch T s A q (tw_eDir w) MNDir (fi_dir fi)) as [s1 r] eqn:E. apply pair_equal_spec in H as [<- _].
  unfold scanned. rewrite (in_table_path s q Hi). destruct (ts_path s !! q) as [i|] eqn:Hq.
  - rewrite (bool_decide_eq_true_2 (is_Some (Some i))) by eauto. unfold finding_of. destruct (a_watch A q) eqn:Ha.
    + assert (opens T A q = opens T A q) as _ by done. destruct (ti_path _ _ Hi q i Hq) as (y&Hy&Hyp&_).
      pose proof (singlewatch_known T s A q (tw_eDir w) MNDir (fi_dir fi) i y Hi Hq Hy) as K. rewrite Ha, E in K. apply pair_equal_spec in K as [-> _].
      assert (tw_at (watched_state T s i (add_role MNDir (tw_eDir w) y) (fi_dir fi)) q = Some (add_role MNDir (tw_eDir w) y)) as K.
      { eapply tw_at_eq; [exact Hq|apply lookup_insert]. }
      exists (add_role MNDir (tw_eDir w) y). unfold direct_at, member_at. rewrite (tw_at_eq s q i y Hq Hy). split_and!; try done.
      unfold reg_at. rewrite K. cbn [mbind option_bind]. apply lookup_insert.
    + assert (tinv T s1) as H1 by (by eapply singlewatch_inv). rewrite (in_table_path s1 q H1).
      destruct (ti_path _ _ Hi q i Hq) as (y&Hy&Hyp&_). rewrite (singlewatch_known T s A q _ MNDir _ i y Hi Hq Hy), Ha in E. apply pair_equal_spec in E as [<- _].
      cbn. by rewrite Hq, bool_decide_eq_true_2 by eauto.
    + assert (tinv T s1) as H1 by (by eapply singlewatch_inv). rewrite (in_table_path s1 q H1).
      destruct (ti_path _ _ Hi q i Hq) as (y&Hy&Hyp&_). rewrite (singlewatch_known T s A q _ MNDir _ i y Hi Hq Hy), Ha in E. apply pair_equal_spec in E as [<- _].
      cbn. by rewrite Hq, bool_decide_eq_true_2 by eauto.
  - assert (tinv T s1) as H1 by (by eapply singlewatch_inv).
    rewrite (bool_decide_eq_false_2 (is_Some None)) by (by intros [? ?]). unfold finding_of.
    assert (opens T A q = NewOk → match a_watch A q with
      | SOk => ∃ x, tw_at s1 q = Some x ∧ tw_eDir x = direct_at s q ∧ tw_eNonDir x = member_at s q .| tw_eDir w ∧ reg_at T s1 q = Some (t_encode T (tw_e x) (fi_dir fi))
      | _ => in_table s1 q = false end) as Hopen.
    { intros Ho. destruct (a_watch A q) eqn:Ha.
      - destruct (singlewatch_ok T s A q (tw_eDir w) MNDir (fi_dir fi) s1 r Hi HA Ho Ha E) as (K1&K2&_).
        apply (tw_at_None T s q Hi) in Hq. unfold tw_or_new in *. rewrite Hq in *. cbn [default] in *.
        eexists. split; [exact K1|]. unfold direct_at, member_at. rewrite Hq. split_and!; [done|done|exact K2].
      - rewrite (in_table_path s1 q H1). rewrite (singlewatch_new T s A q _ MNDir _ Hq), Ho, Ha in E. apply pair_equal_spec in E as [<- _]. cbn. by rewrite Hq.
      - rewrite (in_table_path s1 q H1). rewrite (singlewatch_new T s A q _ MNDir _ Hq), Ho, Ha in E. apply pair_equal_spec in E as [<- _]. cbn. by rewrite Hq. }
    unfold opens in Hopen. destruct (t_fds T) eqn:HT.
    + rewrite (singlewatch_new T s A q _ MNDir _ Hq) in E. unfold opens in E. rewrite HT in E. destruct (a_new A q) eqn:Hn.
      * specialize (Hopen eq_refl). by destruct (a_watch A q).
      * apply pair_equal_spec in E as [<- _]. by apply (tw_at_None T s q Hi).
      * apply pair_equal_spec in E as [<- _]. by rewrite (in_table_path s q Hi), Hq.
      * apply pair_equal_spec in E as [<- _]. by rewrite (in_table_path s q Hi), Hq.
    + specialize (Hopen eq_refl). by destruct (a_watch A q).
Qed.
Lemma rescan_scanned A w ls s evn s' evn' : tinv T s → fresh_fd A → NoDup (entries (tw_p w) ls) → foldl (rescan1 T A w) (s, evn) ls = (s', evn') →
  ∀ fi : finfo, fi ∈ ls → scanned A (tw_eDir w) s s' fi (join (tw_p w) (fi_name fi)).
Proof.
  intros Hi HA. revert s evn Hi. induction ls as [|fi ls IH]; intros s evn Hi Hnd H x Hx; [by apply elem_of_nil in Hx|]. cbn [foldl] in H.
  unfold entries in Hnd. rewrite fmap_cons in Hnd. apply NoDup_cons in Hnd as [Hni Hnd].
  destruct (rescan1 T A w (s, evn) fi) as [s1 evn1] eqn:E. assert (tinv T s1) as H1 by (by eapply rescan1_inv).
  apply elem_of_cons in Hx as [->|Hx].
  - eapply scanned_same; [|by eapply rescan1_scanned]. by eapply rescan_same.
  - eapply scanned_before; [|by eapply (IH s1 evn1 H1)]. eapply rescan1_same; [done|done|exact E|]. intros Heq. apply Hni. rewrite Heq. apply elem_of_list_fmap. by exists x.
Qed.

(** ** A directory reports a write *)
Lemma process_write s st A ord d w ge ls : tinv T s → tw_at s d = Some w → tw_dir w = true → ge .& (t_rename T .| t_remove T) = 0 → ge .& t_write T ≠ 0 →
  a_watch A d = SOk → a_ls A d = Some ls →
  ∃ s1, tinv T s1 ∧ (∀ q, tw_at s1 q = tw_at s q) ∧ (∀ q, q ≠ d → same_at T s s1 q) ∧
    (∀ y, st = Some y → reg_at T s1 d = Some (t_encode T (tw_e w) y)) ∧
    trg_process T s st A ord (ident_of T w) ge = foldl (rescan1 T A w) (s1, []) ls.
Proof.
  intros Hi Hat Hdir Hge Hwr HA Hls. apply tw_at_Some in Hat as Hat'. destruct Hat' as (i&Hp&Hw).
  destruct (ti_path _ _ Hi d i Hp) as (x&Hx&Hxp&Hxf). rewrite Hw in Hx. injection Hx as <-.
  unfold trg_process. set (s0 := if t_fds T then s else set_reg s (delete (ident_of T w) (ts_reg s))).
  assert (tinv T s0) as Hi0 by (unfold s0; destruct (t_fds T); [done|by apply tinv_reg_delete]).
  assert (∀ q, d ≠ q → same_at T s s0 q) as Hs0 by (intros q Hq; by eapply taken_same).
  assert (ts_path s0 = ts_path s ∧ ts_heap s0 = ts_heap s ∧ ts_open s0 = ts_open s) as (Ep&Eh&Eo) by (unfold s0; by destruct (t_fds T)).
  clearbody s0. rewrite (process_subject T s0 d w i Hi0) by (by rewrite ?Ep, ?Eh). rewrite Eh, Hw. cbv zeta.
  change (t_rename T .| t_remove T) with (native_gone T) in Hge. apply N.eqb_eq in Hge as Hg0. rewrite Hg0. cbn [negb].
  assert (t_Watch T s0 A i (t_encode T (tw_e w) (default false st)) = (set_reg s0 (<[ident_of T w := t_encode T (tw_e w) (default false st)]> (ts_reg s0)), ROk)) as HW.
  { unfold t_Watch. rewrite Eh, Hw, Hxp, HA. unfold live. destruct (t_fds T); [|done]. cbn.
    rewrite bool_decide_eq_true_2; [done|]. rewrite Eo. by apply Hxf. }
  set (s1 := match st with None => s0 | Some _ => set_reg s0 (<[ident_of T w := t_encode T (tw_e w) (default false st)]> (ts_reg s0)) end).
  exists s1. assert (tinv T s1) as H1.
  { unfold s1. destruct st; [|done]. apply tinv_reg_insert; [done|]. rewrite Eo. intros HT. by apply Hxf. }
  assert (∀ q, tw_at s1 q = tw_at s q) as K1.
  { intros q. unfold tw_at, s1. destruct st; cbn; by rewrite Ep, Eh. }
  split; [done|]. split; [done|]. split_and!.
  - intros q Hne. eapply same_trans; [by apply Hs0|]. unfold s1. destruct st; [|apply same_refl].
    eapply (same_reg T s0 d i w); [done|by rewrite Ep|by rewrite Eh|done|]. intros k Hk. by rewrite lookup_insert_ne.
  - intros y ->. unfold reg_at. rewrite K1, Hat. cbn [mbind option_bind]. apply lookup_insert.
  - assert ((decode (t_nat2not T) ge (tw_e w) =? 0) && (negb (tw_dir w) || (ge .& t_write T =? 0)) = false) as Hn.
    { apply N.eqb_neq in Hwr as Hwr'. rewrite Hdir, Hwr'. apply andb_false_r. }
    replace (match st with Some y => match t_Watch T s0 A i (t_encode T (tw_e w) y) with (s2, ROk) => s2 | (s2, _) => t_Del T s2 i end | None => s0 end) with s1.
    + rewrite Hn, Hdir. unfold trg_dir. rewrite Hg0. cbn [negb]. assert (nonzero (ge .& t_write T) = true) as -> by (by apply nz_iff).
      rewrite Hxp, Hls. by destruct (foldl _ _ _).
    + unfold s1. destruct st as [y|]; [|done]. change (default false (Some y)) with y in HW. change (default false (Some y)) with y. by rewrite HW.
Qed.
Lemma rescan_process s st A ord d w ge ls s' evn : tinv T s → fresh_fd A → tw_at s d = Some w → tw_dir w = true →
  ge .& (t_rename T .| t_remove T) = 0 → ge .& t_write T ≠ 0 → a_watch A d = SOk → a_ls A d = Some ls → NoDup (entries d ls) → d ∉ entries d ls →
  trg_process T s st A ord (ident_of T w) ge = (s', evn) →
  evn = (ls ≫= λ fi, scan_event T (tw_eDir w) d fi (finding_of T A (in_table s (join d (fi_name fi))) (join d (fi_name fi)))) ∧
  (∀ fi : finfo, fi ∈ ls → scanned A (tw_eDir w) s s' fi (join d (fi_name fi))) ∧
  (∀ q, q ∉ entries d ls → tw_at s' q = tw_at s q ∧ (q ≠ d → reg_at T s' q = reg_at T s q)) ∧
  (∀ y, st = Some y → reg_at T s' d = Some (t_encode T (tw_e w) y)).
Proof.
  intros Hi HA Hat Hdir Hge Hwr HW Hls Hnd Hd H.
  assert (tw_p w = d) as Hwp. { apply tw_at_Some in Hat as (i&Hp&Hw). destruct (ti_path _ _ Hi d i Hp) as (x&Hx&Hxp&_). congruence. }
  destruct (process_write s st A ord d w ge ls Hi Hat Hdir Hge Hwr HW Hls) as (s1&H1&K1&K2&K3&K4). rewrite K4 in H. clear K4. rewrite <-Hwp in Hnd.
  split_and!.
  - rewrite (rescan_events A w ls s1 [] s' evn H1 HA Hnd H). cbn [app]. rewrite Hwp. apply Forall_bind_ext, Forall_forall. intros fi Hfi.
    unfold in_table. by rewrite K1.
  - intros fi Hfi. pose proof (rescan_scanned A w ls s1 [] s' evn H1 HA Hnd H fi Hfi) as K. rewrite Hwp in K. eapply scanned_before; [|exact K].
    apply K2. intros Heq. apply Hd. rewrite <-Heq at 1. apply elem_of_list_fmap. by exists fi.
  - intros q Hq. rewrite <-Hwp in Hq. pose proof (rescan_same A w ls s1 [] s' evn q H1 HA H Hq) as [_ S2 S3]. split; [by rewrite S2|].
    intros Hne. rewrite S3. apply (sa_reg _ _ _ _ (K2 q Hne)).
  - intros y Hy. rewrite <-Hwp in Hd. pose proof (rescan_same A w ls s1 [] s' evn _ H1 HA H Hd) as [_ S2 S3]. rewrite <-Hwp. rewrite S3, Hwp. by apply K3.
Qed.
End scan.
(** Names of entries make distinct paths. *)
Lemma entries_distinct tp ls : Forall proper tp → Forall (λ fi, proper (fi_name fi)) ls → NoDup (fi_name <$> ls) →
  NoDup (entries (topath tp) ls) ∧ topath tp ∉ entries (topath tp) ls.
Proof.
  intros Ht Hl Hnd.
  assert (entries (topath tp) ls = (λ c, topath (tp ++ [c])) <$> (fi_name <$> ls)) as ->.
  { unfold entries. rewrite <-list_fmap_compose. apply Forall_fmap_ext_1, Forall_forall. intros fi Hfi. cbn.
    apply InotifyTab.fjoin_topath; [done|]. by eapply Forall_forall in Hl. }
  assert (∀ (q q' : list str), Forall proper q → Forall proper q' → topath q = topath q' → q = q') as Hinj.
  { assert (∀ l, Forall proper l → comps_ok slash l) as Hc by (intros l Hp; eapply Forall_impl; [exact Hp|]; by intros x (?&?&?&?)).
    assert (comps_ok slash [[]]) as Hc0 by (apply Forall_singleton; intros Hin; by apply elem_of_nil in Hin).
    intros q q' Hq Hq' Heq. unfold topath in Heq. destruct q as [|a q], q' as [|a' q']; [done| | |].
    - apply (render_inj slash) in Heq; [|done|by apply Hc]. injection Heq as <- <-. apply Forall_cons in Hq' as [[? _] _]. done.
    - apply (render_inj slash) in Heq; [|by apply Hc|done]. injection Heq as -> ->. apply Forall_cons in Hq as [[? _] _]. done.
    - apply (render_inj slash) in Heq; [done|by apply Hc|by apply Hc]. }
  assert (∀ c : str, c ∈ fi_name <$> ls → Forall proper (tp ++ [c])) as Hpr.
  { intros c (fi&->&Hfi)%elem_of_list_fmap. apply Forall_app. split; [done|]. apply Forall_singleton. by eapply Forall_forall in Hl. }
  split.
  - clear Hl. induction (fi_name <$> ls) as [|c l IH]; [constructor|]. rewrite fmap_cons. apply NoDup_cons in Hnd as [Hn Hnd]. constructor.
    + intros (c'&Heq&Hc')%elem_of_list_fmap. apply Hinj in Heq; [|apply Hpr; left|apply Hpr; by right]. apply app_inj_tail in Heq as [_ ->]. done.
    + apply IH; [done|]. intros x Hx. apply Hpr. by right.
  - intros (c&Heq&Hc)%elem_of_list_fmap. apply Hinj in Heq; [|done|by apply Hpr]. apply (f_equal length) in Heq. rewrite app_length in Heq. cbn in Heq. lia.
Qed.
