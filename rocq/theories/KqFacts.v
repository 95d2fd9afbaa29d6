(** * KqFacts: invariants of the tree with the kqueue or FEN watcher *)
From Verif Require Import Base Event Watchpoint WatchpointFacts Paths PathsFacts Node NonRec SpecTree SpecOS NonRecWp Clean SpecClean CleanFacts
  Trigger SpecTrigger TriggerFacts TriggerTab TriggerRun TriggerRoles TriggerScan SpecKq.
From Verif Require SpecNonRec SpecNonRecOS.
Local Open Scope N_scope.

Lemma topath_inj q q' : Forall proper q → Forall proper q' → topath q = topath q' → q = q'.
Proof.
  assert (∀ l, Forall proper l → comps_ok slash l) as Hc by (intros l Hp; eapply Forall_impl; [exact Hp|]; by intros x (?&?&?&?)).
  assert (comps_ok slash [[]]) as Hc0 by (apply Forall_singleton; intros Hin; by apply elem_of_nil in Hin).
  intros Hq Hq' Heq. unfold topath in Heq. destruct q as [|a q], q' as [|a' q']; [done| | |].
  - apply (render_inj slash) in Heq; [|done|by apply Hc]. injection Heq as <- <-. apply Forall_cons in Hq' as [[? _] _]. done.
  - apply (render_inj slash) in Heq; [|by apply Hc|done]. injection Heq as -> ->. apply Forall_cons in Hq as [[? _] _]. done.
  - apply (render_inj slash) in Heq; [done|by apply Hc|by apply Hc].
Qed.
Lemma child_unique p p' q : child p q → child p' q → p = p'.
Proof.
  intros (tp&c&Hp&Hc&->&->) (tp'&c'&Hp'&Hc'&->&Heq).
  apply topath_inj in Heq; [by apply app_inj_tail in Heq as [-> _]|apply Forall_app; split; [done|by apply Forall_singleton]..].
Qed.
Lemma entries_child p ls q : cleanp p → names_ok ls → q ∈ entries p ls → child p q.
Proof.
  intros (tp&Hp&->) Hn (fi&->&Hfi)%elem_of_list_fmap. unfold names_ok in Hn. rewrite Forall_forall in Hn. exists tp, (fi_name fi). split_and!; [done|by apply Hn|done|].
  apply InotifyTab.fjoin_topath; [done|by apply Hn].
Qed.

Section drives.
Context (T : trig) (ty : str → bool).
Notation kdrives := (kdrives T ty).
Ltac kind_ H := induction H as [|log L r ts c H IH Ha|log L r ts A p e ls res ts' H IH HA He Hu Hp Hl Hn Hs|log L r ts A p ls res ts' H IH HA Hp Hl Hn Hs
    |log L r ts A A' p old e ls ls' res ts' H IH HA HA' He Hu Hp Hl Hn Hl' Hn' Hd Hs|log L r ts st A ord k ge evn ts' H IH HA Hk Hs
    |log L r ts st A ord p w ge evn ts' H IH HA Hw Hge Hno Hs gone|log L r ts A ord p w ls ge evn ts' H IH HA Hw Hge Hno Hl Hs
    |log L r ts A ord p w ls ge evn ts' H IH HA Hw Hge Hty Hwr Hp Hl Hn Hs].
Lemma kdrives_orderly log L r ts : kdrives log L r ts → orderly T ty false r ts.
Proof.
  intros H. kind_ H.
  - constructor.
  - done.
  - by eapply ord_watch.
  - by eapply ord_unwatch.
  - exact (ord_rewatch T ty false r ts A A' p e ls ls' res ts' IH HA HA' He Hl Hl' Hd Hs).
  - by eapply ord_unknown.
  - exact (ord_gone T ty false r ts st A ord p w ge evn ts' IH HA Hw Hge Hno Hs).
  - epose proof (ord_event T ty false r ts A ord p w ls ge evn ts' IH HA Hw Hge _ Hl Hs) as K. by rewrite decide_False in K.
    Unshelve. done.
  - epose proof (ord_event T ty false r ts A ord p w ls ge evn ts' IH HA Hw Hge _ Hl Hs) as K. by rewrite decide_True in K.
    Unshelve. done.
Qed.
Lemma kdrives_texec log L r ts : kdrives log L r ts → ∃ tr, texec T tr ts.
Proof.
  intros H. kind_ H; [eexists; constructor|done|..]; destruct IH as [tr IH]; eexists; (eapply texec_step; [exact IH| |exact Hs]); cbn [label_ok]; try split; by apply wl_fd.
Qed.
(** Only 32-bit masks *)
Lemma kdrives_u32 log L r ts q : kdrives log L r ts → u32 (direct r q) ∧ u32 (member r q).
Proof.
  assert (u32 0) as H0 by (unfold u32; lia).
  assert (∀ f ps e x, u32 (f x) → u32 e → u32 (orl f ps e x)) as Ho by (intros f ps e x ? ?; unfold orl; destruct (decide _); [by apply u32_lor|done]).
  assert (∀ f ps x, u32 (f x) → u32 (clr f ps x)) as Hc by (intros f ps x ?; unfold clr; by destruct (decide _)).
  intros H. revert q. kind_ H; intros q; try done.
  - destruct (IH q). cbn [role_watch direct member]. split; by apply Ho.
  - destruct (IH q). cbn [role_unwatch direct member]. split; by apply Hc.
  - destruct (IH q). cbn [role_watch role_unwatch direct member]. split; (apply Ho; [by apply Hc|done]).
  - destruct (IH q). cbn [role_gone direct member]. split; by destruct (decide _).
  - destruct (IH q), (IH p). cbn [role_rescan direct member]. split; [done|by apply Ho].
Qed.
(** What is watched directly is what the tree's calls say. *)
Lemma log_legal_snoc P l x : log_legal P (l ++ [x]) → log_legal P l ∧ legal P (os_watches l) x.1.
Proof.
  intros H. split.
  - intros l1 c ok l2 ->. apply (H l1 c ok (l2 ++ [x])). by rewrite <-app_assoc.
  - destruct x as [c ok]. by apply (H l c ok []).
Qed.
Lemma os_snoc l x : os_watches (l ++ [x]) = os_step (os_watches l) x.
Proof. unfold os_watches. by rewrite foldl_app. Qed.
Lemma watch_result A p e ls ts ts' r res : willing A → orderly T ty false r ts → listing ty A p ls → tstep T ts (TWatch (Some (ty p)) A p e res) ts' → res = ROk.
Proof.
  intros HA Ho Hl Hs. apply orderly_agrees in Ho as [Hi Ha]. inversion Hs as [? ? ? ? ? ? E| | |]; subst. clear Hs. cbn [trg_Watch] in E.
  assert (false = true → e ≠ 0) as He by done. by destruct (watch_agrees T ty false A p e ls ts ts' res r HA He Hl Hi Ha E) as [? _].
Qed.
Lemma rewatch_result A A' p e d ts ts' res : tstep T ts (TRewatch (Some d) A A' p e res) ts' → res = ROk.
Proof.
  intros Hs. inversion Hs as [| |? ? ? ? ? ? ? E|]; subst. unfold trg_Rewatch in E. destruct (trg_unwatch T ts A p d) as [s1 r1].
  by destruct r1; apply pair_equal_spec in E as [_ <-].
Qed.
Lemma kdrives_direct P log L r ts p : kdrives log L r ts → log_legal P log → direct r p ≠ 0 → os_watches log !! p = Some (direct r p, false).
Proof.
  intros H. revert p. kind_ H; intros q Hlg Hq.
  - done.
  - apply log_legal_snoc in Hlg as [Hlg _]. rewrite os_snoc. destruct c; cbn [os_step]; by apply IH.
  - apply log_legal_snoc in Hlg as [Hlg [Hnone _]]. cbn [fst] in *. rewrite os_snoc.
    rewrite (watch_result A p e ls ts ts' r res HA (kdrives_orderly _ _ _ _ H) Hl Hs), bool_decide_eq_true_2 by done. cbn [os_step role_watch direct] in *. unfold orl in *.
    destruct (decide (q ∈ [p])) as [->%elem_of_list_singleton|Hne].
    + rewrite lookup_insert. destruct (decide (direct r p = 0)) as [->|Hd]; [by rewrite N.lor_0_l|]. specialize (IH p Hlg Hd). congruence.
    + rewrite lookup_insert_ne by (intros ->; apply Hne; left). by apply IH.
  - apply log_legal_snoc in Hlg as [Hlg _]. rewrite os_snoc. cbn [role_unwatch direct] in *. unfold clr in *.
    destruct (decide (q ∈ [p])) as [_|Hne]; [done|]. destruct (bool_decide (res = ROk)); cbn [os_step]; [|by apply IH].
    rewrite lookup_delete_ne by (intros ->; apply Hne; left). by apply IH.
  - apply log_legal_snoc in Hlg as [Hlg _]. rewrite os_snoc. rewrite (rewatch_result _ _ _ _ _ _ _ _ Hs), bool_decide_eq_true_2 by done.
    cbn [os_step role_watch role_unwatch direct] in *. unfold orl, clr in *.
    destruct (decide (q ∈ [p])) as [->%elem_of_list_singleton|Hne]; [by rewrite lookup_insert, N.lor_0_l|].
    rewrite lookup_insert_ne by (intros ->; apply Hne; left). by apply IH.
  - by apply IH.
  - cbn [role_gone direct] in *. destruct (decide (gone q)); [done|]. by apply IH.
  - by apply IH.
  - by apply IH.
Qed.
(** Listed entries are watched for what their directory is watched for. *)
Lemma kdrives_listed P log L r ts p q : kdrives log L r ts → log_legal P log → child p q → L q → incl_ev (direct r p) (member r q).
Proof.
  assert (∀ f ps e x, incl_ev (f x) (orl f ps e x)) as Ho.
  { intros f ps e x. unfold orl. destruct (decide _); [|by intros ? ?]. intros i Hi. apply has_lor. by left. }
  intros H. revert p q. kind_ H; intros d q Hlg Hch HL.
  - done.
  - apply log_legal_snoc in Hlg as [Hlg _]. by eapply IH.
  - pose proof Hlg as [Hlg' [Hnone _]]%log_legal_snoc. cbn [fst] in *. cbn [role_watch direct member]. destruct HL as [HL|[Hnc HL]].
    + assert (d = p) as -> by (eapply child_unique; [exact Hch|by eapply entries_child]).
      destruct (decide (direct r p = 0)) as [Hz|Hd]; [|pose proof (kdrives_direct P _ _ _ _ p H Hlg' Hd); congruence].
      unfold orl. rewrite (decide_True (P := p ∈ [p])) by left. rewrite (decide_True (P := q ∈ _)) by done. rewrite Hz, N.lor_0_l. intros i Hi. apply has_lor. by right.
    + assert (d ∉ [p]) as Hne by (intros ->%elem_of_list_singleton; done). unfold orl at 1. rewrite decide_False by done.
      intros i Hi. apply Ho. by eapply IH.
  - apply log_legal_snoc in Hlg as [Hlg _]. cbn [role_unwatch direct member]. unfold clr. destruct (decide (d ∈ [p])) as [|Hne]; [intros i Hi; by apply has_0 in Hi|].
    destruct (decide (q ∈ entries p ls)) as [Hin|Hin].
    + exfalso. apply Hne. rewrite (child_unique d p q Hch (entries_child p ls q Hp Hn Hin)). left.
    + destruct HL as [HL|[_ HL]]; [done|]. by eapply IH.
  - apply log_legal_snoc in Hlg as [Hlg _]. cbn [role_watch role_unwatch direct member]. unfold orl, clr. destruct (decide (d ∈ [p])) as [->%elem_of_list_singleton|Hne].
    + destruct HL as [HL|[Hnc _]]; [|done]. rewrite (decide_True (P := q ∈ entries p ls')) by done. rewrite N.lor_0_l. intros i Hi. apply has_lor. by right.
    + assert (∀ l, names_ok l → q ∉ entries p l) as Hq.
      { intros l Hl0 Hin. apply Hne. rewrite (child_unique d p q Hch (entries_child p l q Hp Hl0 Hin)). left. }
      rewrite !decide_False by (by apply Hq). destruct HL as [HL|[_ HL]]; [by apply Hq in HL|]. by eapply IH.
  - by eapply IH.
  - cbn [role_gone direct member]. destruct HL as [Hng HL]. destruct (decide (gone q)) as [|_]; [done|]. destruct (decide (gone d)); [intros i Hi; by apply has_0 in Hi|].
    by eapply IH.
  - by eapply IH.
  - cbn [role_rescan direct member]. destruct HL as [HL|[Hnc HL]].
    + assert (d = p) as -> by (eapply child_unique; [exact Hch|by eapply entries_child]). unfold orl. rewrite decide_True by done. intros i Hi. apply has_lor. by right.
    + intros i Hi. apply Ho. by eapply IH.
Qed.
(** What is watched for is in the table. *)
Lemma kdrives_table log L r ts q : kdrives log L r ts → direct r q .| member r q ≠ 0 → is_Some (tw_at ts q).
Proof.
  intros [_ Ha]%kdrives_orderly%orderly_agrees Hn. specialize (Ha q). unfold agree_at in Ha. destruct (tw_at ts q); [eauto|]. by destruct Ha as [E1 E2]; rewrite E1, E2 in Hn.
Qed.
Lemma kdrives_entry log L r ts q w : kdrives log L r ts → tw_at ts q = Some w →
  tinv T ts ∧ tw_e w = direct r q .| member r q ∧ tw_eDir w = direct r q ∧ tw_dir w = ty q ∧ reg_at T ts q = Some (t_encode T (direct r q .| member r q) (ty q)).
Proof.
  intros [Hi Ha]%kdrives_orderly%orderly_agrees Hw. specialize (Ha q). unfold agree_at in Ha. rewrite Hw in Ha. destruct Ha as (H1&H2&_&H4&H5).
  unfold tw_e in *. rewrite H1, H2 in *. done.
Qed.
(** What is made of a report about a file *)
Lemma file_report ts st A ord q w ge evn ts' : tinv T ts → tw_at ts q = Some w → tw_dir w = false →
  tstep T ts (TEvent st A ord (ident_of T w) ge evn) ts' →
  evn = let e := decode (t_nat2not T) ge (tw_e w) in if decide (e = 0) then [] else [TE q e false].
Proof.
  intros Hi Hw Hd Hs. inversion Hs as [| | |? ? ? ? ? ? ? _ H]; subst. clear Hs. apply tw_at_Some in Hw as (i&Hp&Hh).
  destruct (ti_path _ _ Hi q i Hp) as (x&Hx&Hxp&_). rewrite Hh in Hx. injection Hx as <-.
  unfold trg_process in H. set (s0 := if t_fds T then ts else _) in H.
  assert (t_Watched T s0 (ident_of T w) = Some i ∧ ts_heap s0 !! i = Some w) as [Hk Hh0].
  { pose proof (process_subject T ts q w i Hi Hp Hh) as K. subst s0. destruct (t_fds T) eqn:E; [done|]. split; [|done]. unfold t_Watched in *. rewrite E in *. unfold ident_of in *. rewrite E in *. done. }
  rewrite Hk, Hh0 in H. cbv zeta in H. rewrite Hd in H. cbn [negb orb] in H. rewrite andb_true_r in H.
  set (s1 := if ge .& native_gone T =? 0 then _ else _) in H. clearbody s1. cbv zeta.
  destruct (N.eqb_spec (decode (t_nat2not T) ge (tw_e w)) 0) as [E|E]; apply pair_equal_spec in H as [_ <-]; [by rewrite decide_True|by rewrite decide_False, Hxp].
Qed.
(** What is made of a report that a directory is gone *)
Lemma moved_prefix A w e ord s evn : ∃ rest, (foldl (dir_moved1 T A w e) (s, evn) ord).2 = evn ++ rest.
Proof.
  revert s evn. induction ord as [|k ord IH]; intros s evn; [exists []; by rewrite app_nil_r|]. cbn [foldl].
  assert (∃ s1 r1, dir_moved1 T A w e (s, evn) k = (s1, evn ++ r1)) as (s1&r1&->).
  { unfold dir_moved1. destruct (has_prefix _ k); [|exists s, []; by rewrite app_nil_r]. destruct (nonzero _); [by eexists _, _|]. eexists _, []. by rewrite app_nil_r. }
  destruct (IH s1 (evn ++ r1)) as [r2 ->]. exists (r1 ++ r2). by rewrite app_assoc.
Qed.
Lemma gone_report ts st A ord p w ge evn ts' : tinv T ts → tw_at ts p = Some w → tw_dir w = true → noticed T w ge →
  ge .& (t_rename T .| t_remove T) ≠ 0 → tstep T ts (TEvent st A ord (ident_of T w) ge evn) ts' →
  ∃ rest, evn = TE p (decode (t_nat2not T) ge (tw_e w) .&^ Write (t_plat T) .&^ t_write T) true :: rest.
Proof.
  intros Hi Hw Hd Hno Hge Hs. inversion Hs as [| | |? ? ? ? ? ? ? _ H]; subst. clear Hs. apply tw_at_Some in Hw as (i&Hp&Hh).
  destruct (ti_path _ _ Hi p i Hp) as (x&Hx&Hxp&_). rewrite Hh in Hx. injection Hx as <-.
  unfold trg_process in H. set (s0 := if t_fds T then ts else _) in H.
  assert (t_Watched T s0 (ident_of T w) = Some i ∧ ts_heap s0 !! i = Some w) as [Hk Hh0].
  { pose proof (process_subject T ts p w i Hi Hp Hh) as K. subst s0. destruct (t_fds T) eqn:E; [done|]. split; [|done]. unfold t_Watched in *. rewrite E in *. unfold ident_of in *. rewrite E in *. done. }
  rewrite Hk, Hh0 in H. cbv zeta in H. rewrite Hd in H. cbn [negb orb] in H.
  set (s1 := if ge .& native_gone T =? 0 then _ else _) in H. clearbody s1.
  assert ((decode (t_nat2not T) ge (tw_e w) =? 0) && (ge .& t_write T =? 0) = false) as Hn.
  { apply andb_false_iff. destruct Hno as [Hn|[_ Hn]]; apply N.eqb_neq in Hn; auto. }
  rewrite Hn in H. unfold trg_dir in H. assert (nonzero (ge .& native_gone T) = true) as Hg by (by apply negb_true_iff, N.eqb_neq). rewrite Hg in H. rewrite Hxp in H.
  set (ev := TE p _ true) in *. destruct (nonzero (ge .& t_rename T)).
  - destruct (foldl _ _ ord) as [s2 evn2] eqn:E. destruct (moved_prefix A w (decode (t_nat2not T) ge (tw_e w)) ord s1 [ev]) as [rest Hr]. rewrite E in Hr. cbn [snd] in Hr.
    apply pair_equal_spec in H as [_ <-]. exists rest. exact Hr.
  - apply pair_equal_spec in H as [_ <-]. by exists [].
Qed.
End drives.
