(** * Property theorem C79: Windows, from the arguments of Watch and the records of the OS to the channels *)
From Verif Require Import Base Event Watchpoint WatchpointFacts Paths PathsFacts Loop LoopFacts
  Node NodeFacts SpecTree NonRec Rec SpecNonRec SpecNonRecOS SpecOS SpecRec RecOrder RecOSStop RecRun RecORun Prop_Basics Prop_Rec Prop_RecOS
  Clean Api Readdcw SpecReaddcw ReaddcwFacts ReaddcwLoop ReaddcwLife ReaddcwRun Prop_Readdcw SpecWin Prop_Win
  WinPath SpecWinPath WinPathFacts Prop_WinPath WinApi SpecWinApi.
From Verif Require Prop_Api ApiFacts.
Local Open Scope N_scope.

(** ** What a path denotes *)
Lemma wlocated_det o p isrec isrec' q q' : full_ok o → wlocated o p isrec q → wlocated o p isrec' q' → isrec = isrec' ∧ q = q'.
Proof.
  intros Ho (x&v&c&r&Hp&Hn&Hf&Hv&Hc&->) (x'&v'&c'&r'&Hp'&Hn'&Hf'&Hv'&Hc'&->).
  assert (isrec = isrec') as <-.
  { destruct isrec, isrec'; try done; [by destruct (Hn' eq_refl x)|by destruct (Hn eq_refl x')]. }
  split; [done|]. assert (x = x') as <- by (rewrite Hp' in Hp; by apply app_inv_tail in Hp).
  rewrite Hf in Hf'. injection Hf' as Hf'. pose proof (volname_vol v c r Hv Hc) as E1. pose proof (volname_vol v' c' r' Hv' Hc') as E2.
  rewrite Hf', E2 in E1. subst v'. apply app_inv_head in Hf'. by injection Hf' as -> ->.
Qed.
Lemma wdenotes_det o p isrec isrec' q q' : full_ok o → wdenotes o p isrec q → wdenotes o p isrec' q' → isrec = isrec' ∧ q = q'.
Proof. intros Ho [H1 _] [H2 _]. by eapply wlocated_det. Qed.
Definition wtidy (r : path) : Prop := Forall (λ c, c ≠ [] ∧ c ≠ dot ∧ c ≠ dotdot ∧ slash ∉ c ∧ bslash ∉ c) r.
Lemma wdenotes_file o p isrec q : full_ok o → wdenotes o p isrec q → (∀ v, ¬ wdenotes o p isrec [v]) →
  wfile q ∧ wtidy (tl q) ∧ wcleanpath o p = inl (nameof bslash true q, isrec).
Proof.
  intros Ho Hd Hr. destruct (C78_path o p isrec q Ho (proj1 Hd) (proj2 Hd)) as (H1&_&_&_&H2&H3).
  assert (tl q ≠ []) as Hne.
  { intros Ht. destruct (wlocated_ok o Ho _ _ _ (proj1 Hd)) as (v&cs&p'&->&_). cbn [tl] in Ht. subst cs. by apply (Hr v). }
  destruct (H3 Hne) as [H4 H5]. split_and!; try done. by rewrite <-H5.
Qed.
Lemma wa_renv E : waenv E → renv readdcw bslash true wvolume E.
Proof. intros [H1 H2 H3 H4]. split; try done. intros p Hp. rewrite H3. by rewrite C78_volume. Qed.

(** ** One call *)
Inductive wtrans : wacall * outcome → list (nop * result) → Prop :=
  | wt_vain o r : wvain o → wtrans (o, r) []
  | wt_bad o p c events e : wtrans (WAWatch o p c events, OBadPath e) []
  | wt_watch o p n events r isrec q :
      events ≠ [] → full_ok o → wdenotes o p isrec q → (∀ v, ¬ wdenotes o p isrec [v]) →
      wtrans (WAWatch o p (Some n) events, ORet r) [(NWatch q isrec n (joinevents readdcw events), r)]
  | wt_stop n : wtrans (WAStop n, ORet ROk) [(NStop n, ROk)].
Lemma wstep_trans E s o s' r : waenv E → (¬ wvain o → wacall_ok o) → wastep E s o = (s', r) →
  (wtrans (o, r) [] ∧ s' = s) ∨
  ∃ o' r', wtrans (o, r) [(o', r')] ∧ rop_ok readdcw bslash true wvolume o' ∧ rstep bslash true E s o' = (s', r').
Proof.
  intros HE Hok Hs. destruct o as [o p c events|n]; cbn [wastep] in Hs.
  - unfold win_Watch in Hs. destruct c as [n|]; [|injection Hs as <- <-; left; by split; [constructor|]].
    destruct events as [|e0 events]; [injection Hs as <- <-; left; by split; [constructor|]|].
    destruct (Hok (λ x, x)) as (Hf&Hl&Hv&Hev). clear Hok.
    destruct (wcleanpath o p) as [[x isrec]|e] eqn:Ec; [|injection Hs as <- <-; left; by split; [constructor|]].
    assert (∃ q, wdenotes o p isrec q) as [q Hd].
    { destruct (w_full o (cutdots p).1) as [f|] eqn:Ef.
      - destruct (C78_located o p f Hf Ef) as [q Hq]. destruct (w_lstat o (wtext q)) as [[|t]|] eqn:El.
        + destruct (C78_path o p _ q Hf Hq El) as [Hc _]. rewrite Ec in Hc. injection Hc as -> ->. by exists q.
        + by destruct (Hl _ _ t Hq).
        + rewrite (proj2 (C78_error o p _ q Hf) Hq El) in Ec. done.
      - rewrite (proj1 (C78_error o p true [] Hf) Ef) in Ec. done. }
    destruct (wdenotes_file o p isrec q Hf Hd (Hv isrec)) as (Hq&_&Hc). rewrite Ec in Hc. assert (x = nameof bslash true q) as -> by congruence. clear Hc.
    destruct (rec_Watch E s (nameof bslash true q) isrec (KUser n) (joinevents (e_plat E) (e0 :: events))) as [s1 r1] eqn:Ew.
    injection Hs as <- <-. right. eexists _, _. split; [by apply wt_watch|]. destruct (ApiFacts.joinevents_ok readdcw _ Hev) as [H1 H2]; [done|].
    split; [done|]. cbn [SpecRec.rstep]. by rewrite (we_plat _ HE) in Ew.
  - injection Hs as <- <-. right. eexists _, _. by split; [apply wt_stop|].
Qed.

(** ** Subscriptions *)
Definition wuser (tr : wtrace) : Prop := ∀ o r, (o, r) ∈ tr → ¬ wvain o → wacall_ok o.
Definition wsub (tr : wtrace) (n : positive) (q : path) (i : N) : Prop :=
  wsubscribed tr n q i ∨ has (recursive readdcw) i ∧ wsubscribed_rec tr n q.
Definition wnow (x : wacall * outcome) (n : positive) (q : path) (i : N) : Prop :=
  ∃ o p isrec events, x = (WAWatch o p (Some n) events, ORet ROk) ∧ wdenotes o p isrec q ∧ events ≠ [] ∧
    ((∃ e, e ∈ events ∧ has e i) ∨ isrec = true ∧ has (recursive readdcw) i).
Lemma wsub_snoc tr x n q i : wsub (tr ++ [x]) n q i ↔ wnow x n q i ∨ wsub tr n q i ∧ x.1 ≠ WAStop n.
Proof.
  assert (∀ (l : wtrace), (∀ r, (WAStop n, r) ∉ l ++ [x]) ↔ (∀ r, (WAStop n, r) ∉ l) ∧ x.1 ≠ WAStop n) as Hk.
  { intros l. split.
    - intros H. split; [intros r Hr; apply (H r), elem_of_app; by left|]. destruct x as [o r]. cbn [fst]. intros ->. apply (H r), elem_of_app. right. by left.
    - intros [H1 H2] r [Hr|Hr%elem_of_list_singleton]%elem_of_app; [by apply (H1 r)|]. by subst. }
  assert (∀ r : outcome, (WAStop n, r) ∉ @nil (wacall * outcome)) as Hnil by (intros r; apply not_elem_of_nil).
  split.
  - intros [(tr1&tr2&o&p&isrec&ev&Heq&Hd&He&Hkp)|[Hi (tr1&tr2&o&p&ev&Heq&Hd&Hne&Hkp)]].
    + apply ApiFacts.split_snoc in Heq as [(->&<-&->)|(tr2'&->&->)].
      * left. exists o, p, isrec, ev. split_and!; try done; [|by left]. intros ->. destruct He as (?&He&_). by apply elem_of_nil in He.
      * apply Hk in Hkp as [Hk1 Hk2]. right. split; [|done]. left. by exists tr1, tr2', o, p, isrec, ev.
    + apply ApiFacts.split_snoc in Heq as [(->&<-&->)|(tr2'&->&->)].
      * left. exists o, p, true, ev. split_and!; try done. by right.
      * apply Hk in Hkp as [Hk1 Hk2]. right. split; [|done]. right. split; [done|]. by exists tr1, tr2', o, p, ev.
  - intros [(o&p&isrec&ev&->&Hd&Hne&[He|[-> Hi]])|[[(tr1&tr2&o&p&isrec&ev&->&Hd&He&Hkp)|[Hi (tr1&tr2&o&p&ev&->&Hd&Hne&Hkp)]] Hx]].
    + left. by exists tr, [], o, p, isrec, ev.
    + right. split; [done|]. by exists tr, [], o, p, ev.
    + left. exists tr1, (tr2 ++ [x]), o, p, isrec, ev. split_and!; try done; [by rewrite <-app_assoc|]. by apply Hk.
    + right. split; [done|]. exists tr1, (tr2 ++ [x]), o, p, ev. split_and!; try done; [by rewrite <-app_assoc|]. by apply Hk.
Qed.
Lemma wasked_sub tr trs n q i : Forall2 wtrans tr trs → has (asked (concat trs) q n) i ↔ wsub tr n q i.
Proof.
  intros Ht. revert trs Ht. induction tr as [|[o r] tr IH] using rev_ind; intros trs Ht.
  { apply Forall2_nil_inv_l in Ht as ->. split; [intros H; by apply has_0 in H|].
    intros [(tr1&?&?&?&?&?&Heq&_)|[_ (tr1&?&?&?&?&Heq&_)]]; by destruct tr1. }
  apply Forall2_app_inv_l in Ht as (trs1&l&Ht&Hl&->). apply Forall2_cons_inv_l in Hl as (x&l'&Htr&Hl&->). apply Forall2_nil_inv_l in Hl as ->.
  rewrite concat_app. cbn [concat]. rewrite app_nil_r, wsub_snoc, <-(IH _ Ht). cbn [fst].
  unfold SpecNonRec.asked. rewrite foldl_app. fold (asked (concat trs1)). set (g := asked (concat trs1)).
  inversion Htr as [? ? Hv|o' p c events e|o' p m events r' isrec ph Hne Hf Hd Hroot|m]; subst; cbn [foldl ask].
  - assert (o ≠ WAStop n) as H1 by (by destruct o as [? ? [?|] [|]|]).
    split; [intros H; by right|].
    intros [(o'&p&isrec&events&[= -> ->]&_&Hne&_)|[H _]]; [by destruct events|done].
  - split; [by intros H; right|]. intros [(?&?&?&?&[=]&_)|[H _]]; done.
  - destruct r'.
    + case_decide as Hdec.
      * destruct Hdec as [-> ->]. rewrite !has_lor, (C01_union readdcw events) by done. unfold rec_bit. split.
        -- intros [[H|H]|H]; [right; by split|left; exists o', p, isrec, events; split_and!; try done; by left|].
           left. exists o', p, isrec, events. split_and!; try done. right. destruct isrec; [done|by apply has_0 in H].
        -- intros [(o2&p'&isrec'&events'&[= <- <- <-]&Hd'&_&H)|[H _]]; [|by left; left].
           destruct (wdenotes_det _ _ _ _ _ _ Hf Hd Hd') as [<- _]. destruct H as [H|[-> H]]; [left; by right|by right].
      * split; [by intros H; right|]. intros [(o2&p'&isrec'&events'&[= <- <- <- <-]&Hd'&_&_)|[H _]]; [|done].
        destruct (wdenotes_det _ _ _ _ _ _ Hf Hd Hd') as [_ <-]. by destruct Hdec.
    + split; [by intros H; right|]. intros [(?&?&?&?&[=]&_)|[H _]]; done.
    + split; [by intros H; right|]. intros [(?&?&?&?&[=]&_)|[H _]]; done.
  - case_decide as Hdec; subst.
    + split; [intros H; by apply has_0 in H|]. intros [(?&?&?&?&[=]&_)|[_ H]]; done.
    + split; [intros H; right; split; [done|]; congruence|]. intros [(?&?&?&?&[=]&_)|[H _]]; done.
Qed.
Lemma wsubscribed_user tr n q i : wuser tr → wsubscribed tr n q i → ¬ has (internal readdcw) i.
Proof.
  intros Hu (tr1&tr2&o&p&isrec&ev&->&_&(e&He&Hi)&_) Hi'.
  destruct (Hu (WAWatch o p (Some n) ev) (ORet ROk)) as (_&_&_&Hev).
  - apply elem_of_app. right. left.
  - intros Hv. destruct ev; [by apply elem_of_nil in He|done].
  - rewrite Forall_forall in Hev. by apply (proj2 (Hev _ He) i).
Qed.
Lemma wasked_ev tr trs n q i : wuser tr → Forall2 wtrans tr trs → ¬ has (internal readdcw) i → has (asked (concat trs) q n) i ↔ wsubscribed tr n q i.
Proof.
  intros Hu Ht Hi. rewrite (wasked_sub tr trs) by done. split; [|by left]. intros [|[H _]]; [done|]. destruct Hi. unfold internal. apply has_lor. by left.
Qed.
Lemma wsub_denotes tr n q i : wuser tr → wsub tr n q i → ∃ o p isrec, full_ok o ∧ wdenotes o p isrec q ∧ (∀ v, ¬ wdenotes o p isrec [v]).
Proof.
  intros Hu H. assert (∃ o p isrec ev r, (WAWatch o p (Some n) ev, r) ∈ tr ∧ ev ≠ [] ∧ wdenotes o p isrec q) as (o&p&isrec&ev&r&Hin&Hne&Hd).
  { destruct H as [(tr1&tr2&o&p&isrec&ev&->&Hd&(e&He&_)&_)|[_ (tr1&tr2&o&p&ev&->&Hd&Hne&_)]].
    - eexists o, p, isrec, ev, _. split_and!; [apply elem_of_app; right; left| |done]. intros ->. by apply elem_of_nil in He.
    - eexists o, p, true, ev, _. split_and!; [apply elem_of_app; right; left|done|done]. }
  destruct (Hu _ _ Hin) as (Hf&_&Hr&_); [intros Hv; by destruct ev|]. exists o, p, isrec. split_and!; try done.
Qed.
Lemma wsub_file tr n q i : wuser tr → wsub tr n q i → wfile q ∧ wtidy (tl q).
Proof. intros Hu H. destruct (wsub_denotes _ _ _ _ Hu H) as (o&p&isrec&Hf&Hd&Hr). by destruct (wdenotes_file o p isrec q Hf Hd Hr) as (?&?&_). Qed.
Lemma wall_sub tr trs n q ev : wuser tr → Forall2 wtrans tr trs → disj_ev ev (internal readdcw) → incl_ev ev (asked (concat trs) q n) ↔ wsubscribed_all tr n q ev.
Proof.
  intros Hu Ht Hev. split; intros H i Hi; specialize (H i Hi); [apply (wasked_ev tr trs) in H|apply (wasked_ev tr trs)]; try done; intros Hi'; by apply (Hev i).
Qed.
Lemma rec_bit_win : recursive readdcw ≠ 0 ∧ ∃ j, recursive readdcw = 2 ^ j.
Proof. split; [by vm_compute|]. apply (pok_single _ win_ok). unfold consts. set_solver. Qed.
Lemma wrec_sub tr trs n q : wuser tr → Forall2 wtrans tr trs → asked (concat trs) q n .& recursive readdcw ≠ 0 ↔ wsubscribed_rec tr n q.
Proof.
  intros Hu Ht. destruct rec_bit_win as (Hz&j&Hj). rewrite nonzero_bit. split.
  - intros (i&[H1 H2]%has_land). apply (wasked_sub tr trs) in H1 as [H1|[_ H1]]; try done.
    exfalso. apply (wsubscribed_user tr n q i Hu H1). unfold internal. apply has_lor. by left.
  - intros H. apply nonzero_bit in Hz as [i Hi]. exists i. apply has_land. split; [|done]. apply (wasked_sub tr trs); [done|]. by right.
Qed.
Lemma wrec_all_sub tr trs n q ev : wuser tr → Forall2 wtrans tr trs → disj_ev ev (internal readdcw) →
  incl_ev (ev .| recursive readdcw) (asked (concat trs) q n) ↔ wsubscribed_all tr n q ev ∧ wsubscribed_rec tr n q.
Proof.
  intros Hu Ht Hev. rewrite <-(wall_sub tr trs), <-(wrec_sub tr trs) by done. destruct rec_bit_win as (Hz&j&Hj). split.
  - intros H. split; [intros i Hi; apply H, has_lor; by left|]. apply nonzero_bit in Hz as [i Hi]. apply nonzero_bit. exists i. apply has_land. split; [|done].
    apply H, has_lor. by right.
  - intros [H1 H2] i [Hi|Hi]%has_lor; [by apply H1|]. apply nonzero_bit in H2 as (k&[H2 H3]%has_land).
    rewrite Hj in Hi, H3. unfold has in Hi, H3. rewrite N.pow2_bits_eqb in Hi, H3. apply N.eqb_eq in Hi, H3. congruence.
Qed.
Lemma wreaches_deliveries tr trs n ev d c : wuser tr → Forall2 wtrans tr trs → ev ≠ 0 → disj_ev ev (internal readdcw) →
  (0 < deliveries readdcw (asked (concat trs)) n ev d c)%nat ↔ wreaches tr n ev d c.
Proof.
  intros Hu Ht Hev Hint. rewrite Prop_Api.deliveries_pos. unfold wreaches.
  rewrite (wall_sub tr trs n (d ++ [c])), (wall_sub tr trs n d) by done.
  split; (intros [H|[H|(a&Ha&H)]]; [by left|right; by left|right; right; exists a; split; [done|]]).
  - destruct H as [Hne H]. apply (wrec_all_sub tr trs) in H as [H1 H2]; try done. split_and!; try done. intros ->.
    apply nonzero_bit in Hev as [i Hi]. destruct (wsub_file tr n [] i Hu) as [[_ (v&cs&[=]&_)] _]. left. by apply H1.
  - destruct H as (Hne&_&H). split; [done|]. by apply (wrec_all_sub tr trs).
Qed.

(** ** Orderly histories *)
Section wanted.
Context (tr : wtrace) (trs : list (list (nop * result))) (Hu : wuser tr) (Ht : Forall2 wtrans tr trs).
Notation g := (asked (concat trs)).
Lemma wwanted_at q i : ev_at readdcw g q i ↔ wwanted tr None q i.
Proof.
  split.
  - intros (n&Hn&Hi). exists n. split; [done|]. by apply (wasked_ev tr trs).
  - intros (n&_&Hn). pose proof (wsubscribed_user _ _ _ _ Hu Hn) as Hi. exists n. split; [|done]. by apply (wasked_ev tr trs).
Qed.
Lemma wwanted_without q n i : ev_at readdcw (without g n) q i ↔ wwanted tr (Some n) q i.
Proof.
  unfold without. split.
  - intros (k&Hk&Hi). destruct (decide (k = n)) as [->|Hne]; [by apply has_0 in Hk|]. exists k. split; [congruence|]. by apply (wasked_ev tr trs).
  - intros (k&Hne&Hk). pose proof (wsubscribed_user _ _ _ _ Hu Hk) as Hi. exists k. rewrite decide_False by congruence. split; [|done]. by apply (wasked_ev tr trs).
Qed.
Lemma wwanted_under q i : ev_below readdcw g q i ↔ wwanted_below tr None q i.
Proof. split; intros (q'&Hab&Hq'); exists q'; (split; [done|]); by apply wwanted_at. Qed.
Lemma wwanted_under_without q n i : ev_below readdcw (without g n) q i ↔ wwanted_below tr (Some n) q i.
Proof. split; intros (q'&Hab&Hq'); exists q'; (split; [done|]); by apply wwanted_without. Qed.
Lemma worderly_trans m o r o' r' : wtrans (o, r) [(o', r')] → worderly tr m o → orderly readdcw bslash true wvolume g m o'.
Proof.
  intros Htr Ho. inversion Htr as [| |x p n events r0 isrec ph Hne Hf Hd Hr|n]; subst; cbn [worderly orderly] in *.
  - destruct Ho as [He Ho]. destruct (Ho isrec ph Hd) as [H1 H2].
    assert (∀ i, has (joinevents readdcw events) i ↔ ∃ e, e ∈ events ∧ has e i) as Hj by (intros i; by apply C01_union). split_and!.
    + destruct He as (e&He&[i Hi]%nonzero_bit). apply nonzero_bit. exists i. apply Hj. by exists e.
    + intros q set Hq Hpre Hor Hm Hin. destruct (H1 q set Hq Hpre Hor Hm) as (e'&j&He'&Hej&Hn). apply Hn, Hin, Hj. by exists e'.
    + intros q Hq Hab Hm. destruct (H2 q Hq Hab Hm) as [n' Hn']. exists n'. apply nonzero_bit. destruct Hn' as [[i Hi]|Hrec].
      * exists i. apply (wasked_sub tr trs); [done|]. by left.
      * apply (wrec_sub tr trs) in Hrec; try done. apply nonzero_bit in Hrec as [i [Hi _]%has_land]. by exists i.
  - intros q Hq Hm. destruct (Ho q Hq Hm) as [H|[(i&H1&H2)|H]]; [left|right; left|right; right].
    + intros i Hi%wwanted_under. by apply wwanted_under_without, H.
    + exists i. by rewrite wwanted_at, wwanted_without.
    + intros i Hi%wwanted_at. by apply wwanted_under_without, H.
Qed.
End wanted.
Lemma waexec_user tr s : waexec tr s → wuser tr.
Proof.
  induction 1 as [|tr s E o s' r _ IH HE Hob Hok Hs]; intros o' r' Ho Hv; [by apply elem_of_nil in Ho|].
  apply elem_of_app in Ho as [Ho|Ho%elem_of_list_singleton]; [by eapply IH|]. injection Ho as -> ->. by apply Hok.
Qed.
Lemma waexec_wexec tr s : waexec tr s → ∃ trs, Forall2 wtrans tr trs ∧ wexec wvolume (concat trs) s.
Proof.
  intros Hwx. induction Hwx as [|tr s E o s' r Hx (trs&Ht&IH) HE Hob Hok Hs]; [exists []; by split; [|constructor]|].
  destruct (wstep_trans E s o s' r HE (λ H, proj1 (Hok H)) Hs) as [[Htr ->]|(o'&r'&Htr&Ho&Hs')].
  - exists (trs ++ [[]]). split; [by apply Forall2_app; [|constructor]|]. by rewrite concat_app, app_nil_r.
  - assert (¬ wvain o) as Hv. { inversion Htr as [| |? ? ? events ? ? ? He| ]; subst; [destruct events; [done|simpl; tauto]|simpl; tauto]. }
    destruct (Hok Hv) as [Hr Hor].
    exists (trs ++ [[(o', r')]]). split; [by apply Forall2_app; [|constructor]|]. rewrite concat_app.
    eapply oexec_step; try done; [by apply wa_renv|]. eapply worderly_trans; try done. by eapply waexec_user.
Qed.

(** ** The watched directory *)
Lemma wname_inj p q : wfile p → wfile q → nameof bslash true p = nameof bslash true q → p = q.
Proof.
  intros Hp Hq He. pose proof (C78_volume p Hp) as E1. pose proof (C78_volume q Hq) as E2. destruct Hp as (_&v&cs&->&_&_&Hc), Hq as (_&v'&cs'&->&_&_&Hc').
  rewrite He, E2 in E1. cbn in E1. assert (v = v') as <- by done. cbn [nameof] in He. apply app_inv_head in He. f_equal. by eapply render_inj.
Qed.
Lemma os_watches_nonzero P log : log_legal P log → ∀ p e k, os_watches log !! p = Some (e, k) → e ≠ 0.
Proof.
  induction log as [|[x ok] log IH] using rev_ind; intros Hlg p e k Hp; [done|].
  assert (log_legal P log ∧ legal P (os_watches log) x) as [Hl Hx].
  { split; [|by eapply (Hlg log x ok [])]. intros l1 y ok' l2 ->. apply (Hlg l1 y ok' (l2 ++ [(x, ok)])). by rewrite <-app_assoc. }
  rewrite os_watches_snoc in Hp. specialize (IH Hl). destruct ok; [|by eapply IH; destruct x].
  destruct x as [q e'|q|q old new|q e'|q|q q' old new]; cbn [os_step legal] in *; rewrite ?lookup_insert_Some, ?lookup_delete_Some in Hp.
  - destruct Hp as [[_ [= <- <-]]|[_ Hp]]; [by apply Hx|by eapply IH].
  - destruct Hp as [_ Hp]. by eapply IH.
  - destruct Hp as [[_ [= <- <-]]|[_ Hp]]; [by apply Hx|by eapply IH].
  - destruct Hp as [[_ [= <- <-]]|[_ Hp]]; [by apply Hx|by eapply IH].
  - destruct Hp as [_ Hp]. by eapply IH.
  - destruct Hp as [[_ [= <- <-]]|[_ [_ Hp]]]; [by apply Hx|by eapply IH].
Qed.

Section sys.
Context (tr : wtrace) (s : st) (rtr : list rlabel) (rs : rstate) (Hsys : win_api tr s rtr rs).
Lemma sys_trans : ∃ trs, Forall2 wtrans tr trs ∧ wexec wvolume (concat trs) s ∧ wuser tr.
Proof.
  destruct Hsys as [Hx _ _]. destruct (waexec_wexec tr s Hx) as (trs&Ht&Hw). exists trs. split_and!; try done. by eapply waexec_user.
Qed.
(** Whatever is watched is the path of a file above one somebody asked for. *)
Lemma watched_tidy p e k : wfile p → os_watches (st_log s) !! nameof bslash true p = Some (e, k) → wtidy (tl p).
Proof.
  intros Hp Hl. destruct sys_trans as (trs&Ht&Hx&Hu).
  destruct (oexec_sound readdcw win_ok bslash true wvolume true _ _ Hx) as (_&_&[_ Hlg _]).
  pose proof (os_watches_nonzero readdcw _ Hlg _ _ _ Hl) as [i Hi]%nonzero_bit.
  destruct (C32_covered_partial readdcw win_ok bslash true wvolume _ _ Hx) as [_ Hex].
  destruct (Hex _ _ _ Hl) as (q&Hq&He&Hiff). apply wname_inj in He as <-; [|done..].
  apply Hiff in Hi as (_&q'&n&[z ->]&Ha). apply (wasked_sub tr trs), (wsub_file tr n (p ++ z) i Hu) in Ha as [_ Ha]; [|done].
  destruct Hp as (_&v&cs&->&_). cbn [tl app] in *. by apply Forall_app in Ha as [? _].
Qed.
Context (g : nat) (isdir : bool) (p r d : path) (c : str) (Hrec : wrecord rs g isdir p r d c) (stat : str → option bool).
Notation got E n a v := (wheard E s winjoin stat (record_sent rs g (FN a (relname r))) n v).
Lemma rec_names : r ≠ [] ∧ [] ∉ r ∧ comps_ok bslash r ∧ tidy r.
Proof.
  destruct (wr_name _ _ _ _ _ _ _ Hrec) as [Hr Hall]. split_and!; [done| | |].
  - intros Hin. rewrite Forall_forall in Hall. by destruct (Hall _ Hin).
  - eapply Forall_impl; [exact Hall|]. by intros x (_&_&_&_&?).
  - eapply Forall_impl; [exact Hall|]. by intros x (_&?&?&?&_).
Qed.
Lemma rec_join : winjoin (nameof bslash true p) (relname r) = nameof bslash true (p ++ r).
Proof.
  destruct rec_names as (H1&H2&H3&H4). apply C78_join; try done; [apply Hrec|].
  destruct (handle_filter rtr rs _ g isdir (wa_run _ _ _ _ Hsys) (wr_rest _ _ _ _ _ _ _ Hrec) (wr_handle _ _ _ _ _ _ _ Hrec)) as (e&k&_&Hw&_).
  rewrite (wdrives_want _ _ (wa_drives _ _ _ _ Hsys)) in Hw. eapply Forall_impl; [eapply watched_tidy; [apply Hrec|exact Hw]|]. by intros x (_&?&?&?&_).
Qed.
Lemma rec_exact trs E n a ge se : Forall2 wtrans tr trs → wexec wvolume (concat trs) s → waenv E → (a, (ge, se)) ∈ actions →
  got E n a ge = deliveries readdcw (asked (concat trs)) n ge d c ∧
  got E n a se = native_deliveries (asked (concat trs)) n a isdir d c ∧
  ∀ v, v ≠ ge → v ≠ se → got E n a v = 0%nat.
Proof.
  intros Ht Hx HE Ha. destruct rec_names as (H1&H2&H3&_).
  apply (C71_exact wvolume (concat trs) s rtr rs Hx (wa_drives _ _ _ _ Hsys) (wa_run _ _ _ _ Hsys) winjoin stat p r d c g isdir
    (wr_file _ _ _ _ _ _ _ Hrec) H1 H2 H3 (wr_entry _ _ _ _ _ _ _ Hrec) rec_join (wr_handle _ _ _ _ _ _ _ Hrec) (wr_rest _ _ _ _ _ _ _ Hrec) E n a ge se (wa_renv E HE) Ha).
Qed.
Lemma action_generic a ge se : (a, (ge, se)) ∈ actions → ge ≠ 0 ∧ disj_ev ge (internal readdcw).
Proof.
  unfold actions. rewrite !elem_of_cons. intros [[= _ -> _]|[[= _ -> _]|[[= _ -> _]|[[= _ -> _]|[[= _ -> _]|H]]]]]; try (by apply elem_of_nil in H);
    (split; [by vm_compute|apply land_zero_disj; by vm_compute]).
Qed.
(** The generic event of a record is offered exactly to the channels that asked for it,
    with whatever spelling of the path, on the file, on its directory, or with "..." on a
    directory further above. *)
Theorem C79_generic E n a ge se : waenv E → (a, (ge, se)) ∈ actions → (0 < got E n a ge)%nat ↔ wreaches tr n ge d c.
Proof.
  intros HE Ha. destruct sys_trans as (trs&Ht&Hx&Hu). destruct (rec_exact trs E n a ge se Ht Hx HE Ha) as (-> & _ & _).
  destruct (action_generic a ge se Ha). by apply wreaches_deliveries.
Qed.
(** The native event of a change of names is offered exactly to the channels that asked
    in this way for the names of files, or of directories if the handle is for these. *)
Theorem C79_names E n a ge se : waenv E → (a, (ge, se)) ∈ actions → a ≠ FILE_ACTION_MODIFIED →
  (0 < got E n a se)%nat ↔ wreaches tr n (if isdir then FileNotifyChangeDirName else FileNotifyChangeFileName) d c.
Proof.
  intros HE Ha Hm. destruct sys_trans as (trs&Ht&Hx&Hu). destruct (rec_exact trs E n a ge se Ht Hx HE Ha) as (_ & -> & _).
  unfold native_deliveries. rewrite decide_False by done. apply wreaches_deliveries; try done; destruct isdir; try (by vm_compute); apply land_zero_disj; by vm_compute.
Qed.
(** That of a modification is offered to the channels that asked for some filter other
    than these two on the file or anywhere above it, with "..." or not. *)
Theorem C79_modified E n : waenv E →
  (0 < got E n FILE_ACTION_MODIFIED FileActionModified)%nat ↔
  ∃ q i, q `prefix_of` (d ++ [c]) ∧ has fileNotifyChangeModified i ∧ wsubscribed tr n q i.
Proof.
  intros HE. destruct sys_trans as (trs&Ht&Hx&Hu).
  assert ((FILE_ACTION_MODIFIED, (Write readdcw, FileActionModified)) ∈ actions) as Ha by (unfold actions; set_solver).
  destruct (rec_exact trs E n _ _ _ Ht Hx HE Ha) as (_ & -> & _). unfold native_deliveries. rewrite decide_True by done.
  assert (disj_ev fileNotifyChangeModified (internal readdcw)) as Hd by (apply land_zero_disj; by vm_compute).
  assert (∀ (f : nat → nat) l, (0 < foldr Nat.add 0 (f <$> l))%nat ↔ ∃ k, k ∈ l ∧ (0 < f k)%nat) as Hs.
  { intros f l. induction l as [|k l IH]; cbn [fmap list_fmap foldr]; [split; [lia|intros (k&Hk&_); by apply elem_of_nil in Hk]|]. split.
    - intros H. destruct (decide (0 < f k)%nat) as [Hk|Hk]; [exists k; split; [by left|done]|]. destruct (proj1 IH) as (k'&Hk'&H'); [lia|]. exists k'. split; [by right|done].
    - intros (k'&[->|Hk]%elem_of_cons&Hf); [lia|]. assert (0 < foldr Nat.add 0 (f <$> l))%nat by (apply IH; eauto). lia. }
  rewrite Hs. split.
  - intros (k&_&Hk). destruct (decide _) as [|Hne] in Hk; [lia|]. apply nonzero_bit in Hne as [i [H1 H2]%has_land].
    exists (take k (d ++ [c])), i. split_and!; [exists (drop k (d ++ [c])); by rewrite take_drop|done|]. apply (wasked_ev tr trs) in H1; try done. intros Hi. by apply (Hd i).
  - intros (q&i&[z Hz]&H1&H2). exists (length q). split.
    + apply elem_of_seq. apply (f_equal length) in Hz. rewrite !app_length in Hz. cbn [length] in Hz. lia.
    + rewrite Hz, take_app. rewrite decide_False; [lia|]. apply nonzero_bit. exists i. apply has_land. split; [|done]. apply (wasked_ev tr trs); try done.
      intros Hi. by apply (Hd i).
Qed.
(** Nothing else is offered. *)
Theorem C79_nothing_else E n a ge se v : waenv E → (a, (ge, se)) ∈ actions → v ≠ ge → v ≠ se → got E n a v = 0%nat.
Proof. intros HE Ha H1 H2. destruct sys_trans as (trs&Ht&Hx&Hu). destruct (rec_exact trs E n a ge se Ht Hx HE Ha) as (_ & _ & H). by apply H. Qed.
(** How often: as often as the subscriptions of the channel, taken together for each
    path, demand. *)
Theorem C79_exact : ∃ reg,
  (∀ n q i, has (reg q n) i ↔ wsubscribed tr n q i ∨ has (recursive readdcw) i ∧ wsubscribed_rec tr n q) ∧
  ∀ E n a ge se, waenv E → (a, (ge, se)) ∈ actions →
    got E n a ge = deliveries readdcw reg n ge d c ∧ got E n a se = native_deliveries reg n a isdir d c.
Proof.
  destruct sys_trans as (trs&Ht&Hx&Hu). exists (asked (concat trs)). split; [intros n q i; by apply wasked_sub|].
  intros E n a ge se HE Ha. by destruct (rec_exact trs E n a ge se Ht Hx HE Ha) as (H1&H2&_).
Qed.
End sys.
(** Whatever a Watch in force asked for, the OS is asked for: on a directory at or above,
    with a filter that reports it, and including everything below unless the entry is
    directly in the directory. *)
Theorem C79_asked tr s rtr rs q n v f d c r0 i : win_api tr s rtr rs → (∀ x, wfile x → x `prefix_of` d → ¬ in_progress rs (nameof bslash true x)) →
  (v, f) ∈ reporting → has v i → wsubscribed tr n q i → d ++ [c] = q ++ r0 → r0 ≠ [] → (length r0 = 1%nat ∨ wsubscribed_rec tr n q) →
  ∃ p r F k, wfile p ∧ d ++ [c] = p ++ r ∧ r ≠ [] ∧ open_handle rs (nameof bslash true p) (F, k) ∧ incl_ev f F ∧ (k = true ∨ length r = 1%nat).
Proof.
  intros Hsys Hrest Hin Hv Hs Hdc Hr0 Hk. destruct (sys_trans _ _ _ _ Hsys) as (trs&Ht&Hx&Hu).
  apply (C71_asked wvolume (concat trs) s rtr rs q n v f d c r0 Hx (wa_drives _ _ _ _ Hsys) (wa_run _ _ _ _ Hsys) Hrest Hin); try done.
  - apply nonzero_bit. exists i. apply has_land. split; [|done]. apply (wasked_sub tr trs); [done|by left].
  - destruct Hk as [Hk|Hk]; [by left|right]. by apply (wrec_sub tr trs).
Qed.

(** ** An instance *)
Definition WA : env := Env readdcw bslash volname (lawful readdcw) (λ n l, alt n l) (λ n l, alt n l) (λ _ _, None) 0.
Lemma WA_ok : waenv WA.
Proof. split; [done..|]. split; [intros; apply alt_perm..|done]. Qed.
Lemma WA_obliging : obliging readdcw WA.
Proof. by apply (lawful_obliging WA). Qed.
Definition wc1 : wacall := WAWatch ex_os (b "../dir/...") (Some 1%positive) [Create readdcw; Write readdcw].
Definition wc2 : wacall := WAWatch ex_os (b ".") (Some 2%positive) [Remove readdcw].
Definition wc3 : wacall := WAWatch ex_os (b "c:\none") (Some 3%positive) [Write readdcw].
Definition ws (l : list wacall) : st := foldl (λ s o, (wastep WA s o).1) init_st l.
Definition wdir : path := [b "C:"; b "dir"].
Definition wwork : path := [b "C:"; b "w"].
Lemma ex_drive q : rpathb bslash true q = true → wfile q.
Proof.
  intros (H1&v&cs&->&Hv&H2)%rpathb_ok. split; [done|]. exists v, cs. split; [done|]. split; [|done]. red in Hv. subst v. left. exists "C"%char. split; [by apply letter_spec|done].
Qed.
Lemma wwatched_in (t : ostab) (ks : list path) q : Forall wfile ks → map_Forall (λ k _, k ∈ (nameof bslash true <$> ks)) t →
  wfile q → is_Some (t !! nameof bslash true q) → q ∈ ks.
Proof.
  intros Hks Ht Hq [x Hx]. apply Ht, elem_of_list_fmap in Hx as (q'&He&Hq'). apply Forall_forall with (x := q') in Hks; [|done].
  by rewrite (wname_inj q q').
Qed.
Local Ltac keys ks q Hq Hm := assert (q ∈ (ks : list path)) as Hin
  by (refine (wwatched_in _ ks q _ _ Hq Hm); [repeat (apply Forall_cons; split; [apply ex_drive; by vm_compute|]); by apply Forall_nil|apply (bool_decide_unpack _); by vm_compute]).
Lemma ex_loc p isrec q f p' r : cutdots p = (p', r) → ex_full p' = Some f → wlocated ex_os p isrec q →
  isrec = r ∧ q = fromslash (volname f) :: clean_comps true (wsplits (drop (length (volname f)) f)).
Proof. intros Hc Hf (x&Hc'&f'&Hf'&->)%ex_located. rewrite Hc in Hc'. injection Hc' as <- <-. rewrite Hf in Hf'. injection Hf' as <-. done. Qed.
Lemma loc1 isrec q : wlocated ex_os (b "../dir/...") isrec q → isrec = true ∧ q = wdir.
Proof. intros H. eapply ex_loc in H as [-> ->]; [|vm_compute; reflexivity..]. split; [done|by vm_compute]. Qed.
Lemma loc2 isrec q : wlocated ex_os (b ".") isrec q → isrec = false ∧ q = wwork.
Proof. intros H. eapply ex_loc in H as [-> ->]; [|vm_compute; reflexivity..]. split; [done|by vm_compute]. Qed.
Lemma loc3 isrec q : wlocated ex_os (b "c:\none") isrec q → isrec = false ∧ q = [b "c:"; b "none"].
Proof. intros H. eapply ex_loc in H as [-> ->]; [|vm_compute; reflexivity..]. split; [done|by vm_compute]. Qed.
Local Ltac located := apply ex_located; eexists; split; [vm_compute; reflexivity|]; eexists; split; [vm_compute; reflexivity|vm_compute; reflexivity].
Lemma den1 : wdenotes ex_os (b "../dir/...") true wdir.
Proof. split; [by located|by vm_compute]. Qed.
Lemma den2 : wdenotes ex_os (b ".") false wwork.
Proof. split; [by located|by vm_compute]. Qed.
Lemma evs_ok l : forallb (λ e, (e <? 2 ^ 32)%N && ((e .& internal readdcw) =? 0)%N) l = true → Forall (λ e, u32 e ∧ user_ev readdcw e) l.
Proof. rewrite forallb_forall, Forall_forall. intros H e He%elem_of_list_In%H. apply andb_true_iff in He as [H1%N.ltb_lt H2%N.eqb_eq]. split; [done|]. by apply land_zero_disj. Qed.
Lemma wc_ok : wacall_ok wc1 ∧ wacall_ok wc2 ∧ wacall_ok wc3.
Proof.
  split_and!; (split; [apply ex_full_ok|]).
  - split; [intros ? ? t [_ ->]%loc1; by vm_compute|]. split; [by intros ? v [[_ [=]]%loc1 _]|]. apply evs_ok. by vm_compute.
  - split; [intros ? ? t [_ ->]%loc2; by vm_compute|]. split; [by intros ? v [[_ [=]]%loc2 _]|]. apply evs_ok. by vm_compute.
  - split; [intros ? ? t [_ ->]%loc3; by vm_compute|]. split; [by intros ? v [[_ [=]]%loc3 _]|]. apply evs_ok. by vm_compute.
Qed.
Definition wtr3 : wtrace := [(wc1, ORet ROk); (wc2, ORet ROk); (wc3, OBadPath EStat)].
Definition wtr4 : wtrace := wtr3 ++ [(WAStop 2, ORet ROk)].
Definition wst4 : st := ws [wc1; wc2; wc3; WAStop 2].
Lemma one_ev e l : e ≠ 0 → ∃ x, x ∈ (e :: l) ∧ x ≠ 0.
Proof. intros He. exists e. split; [left|done]. Qed.
Lemma wsub_cases n q i : wsubscribed wtr3 n q i → n = 1%positive ∧ q = wdir ∨ n = 2%positive ∧ q = wwork.
Proof.
  intros (tr1&tr2&o&x&isrec&events&Heq&[Hd _]&_&_).
  assert ((WAWatch o x (Some n) events, ORet ROk) ∈ wtr3) as H by (rewrite Heq; apply elem_of_app; right; left). clear Heq.
  unfold wtr3 in H. rewrite !elem_of_cons, elem_of_nil in H. destruct H as [H|[H|[H|[]]]]; [| |done].
  - assert (o = ex_os ∧ x = b "../dir/..." ∧ n = 1%positive) as (->&->&->) by (unfold wc1 in H; split_and!; congruence). left. by destruct (loc1 _ _ Hd).
  - assert (o = ex_os ∧ x = b "." ∧ n = 2%positive) as (->&->&->) by (unfold wc2 in H; split_and!; congruence). right. by destruct (loc2 _ _ Hd).
Qed.
Lemma step_eq {A B} (x : A * B) a c : x.1 = a → x.2 = c → x = (a, c).
Proof. destruct x. by intros <- <-. Qed.
Lemma waexec3 : waexec wtr3 (ws [wc1; wc2; wc3]).
Proof.
  destruct wc_ok as (Ho1&Ho2&Ho3).
  assert (waexec [(wc1, ORet ROk)] (ws [wc1])) as H1.
  { apply (wx_call [] init_st WA wc1 (ws [wc1]) (ORet ROk)); [constructor|apply WA_ok|apply WA_obliging| |apply step_eq; [done|by vm_compute]].
    intros _. split; [done|]. split; [by apply one_ev|]. intros isrec p _. split.
    - intros q set Hq _ _ Hm. exfalso. by vm_compute in Hm.
    - intros q Hq _ [x Hm]. exfalso. by vm_compute in Hm. }
  assert (waexec ([(wc1, ORet ROk)] ++ [(wc2, ORet ROk)]) (ws [wc1; wc2])) as H2.
  { apply (wx_call _ (ws [wc1]) WA wc2 (ws [wc1; wc2]) (ORet ROk) H1); [apply WA_ok|apply WA_obliging| |apply step_eq; [done|by vm_compute]].
    intros _. split; [done|]. split; [by apply one_ev|]. intros isrec p [[-> ->]%loc2 _]. split.
    - intros q set Hq Hpre Hor Hm. keys [wdir] q Hq (mk_is_Some _ _ Hm). apply elem_of_list_singleton in Hin as ->. by destruct Hpre.
    - intros q Hq [Hpre _] Hm. keys [wdir] q Hq Hm. apply elem_of_list_singleton in Hin as ->. by destruct Hpre. }
  apply (wx_call _ (ws [wc1; wc2]) WA wc3 (ws [wc1; wc2; wc3]) (OBadPath EStat) H2); [apply WA_ok|apply WA_obliging| |apply step_eq; [done|by vm_compute]].
  intros _. split; [done|]. split; [by apply one_ev|]. intros isrec p [[-> ->]%loc3 Hl]. exfalso. by vm_compute in Hl.
Qed.
Lemma waexec4 : waexec wtr4 wst4.
Proof.
  apply (wx_call wtr3 (ws [wc1; wc2; wc3]) WA (WAStop 2) wst4 (ORet ROk) waexec3); [apply WA_ok|apply WA_obliging| |apply step_eq; [done|by vm_compute]].
  intros _. split; [done|]. intros q Hq Hm. left. intros i (q'&[Hab Hne]&n&_&Hs%wsub_cases). exfalso.
  keys [wdir; wwork] q Hq Hm. rewrite !elem_of_cons, elem_of_nil in Hin.
  destruct Hin as [->|[->|[]]], Hs as [[_ ->]|[_ ->]]; (done || (destruct Hab; done)).
Qed.
Definition wev : N := Create readdcw .| Write readdcw.
Definition wrtr : list rlabel := [LReq (QWatch (b "C:\dir") wev true) true true true] ++ [LReq (QWatch (b "C:\w") (Remove readdcw) false) true true true] ++
  [LReq (QUnwatch (b "C:\w")) true true true].
Lemma wst4_log : st_log wst4 = [(WRecWatch (b "C:\dir") wev, true)] ++ [(WWatch (b "C:\w") (Remove readdcw), true)] ++ [(WUnwatch (b "C:\w"), true)].
Proof. by vm_compute. Qed.
Lemma wst4_drives : wdrives (st_log wst4) wrtr.
Proof.
  rewrite wst4_log. unfold wrtr. rewrite !app_assoc. apply wd_call; [|constructor]. apply wd_call; [|constructor]. apply (wd_call [] []); constructor.
Qed.
Definition wrs : rstate := rdfinal true wrtr.
Lemma wsystem : win_api wtr4 wst4 wrtr wrs.
Proof. split; [apply waexec4|apply wst4_drives|apply rdfinal_orderly; by vm_compute]. Qed.
Definition restb1 (rs : rstate) (p : str) : bool :=
  match rs_tab rs !! p with Some i => match rs_wds rs !! i with Some wd => w_filter wd .& onlyMachineStates =? 0 | None => true end | None => true end.
Lemma rest_check1 rs p : restb1 rs p = true → ¬ in_progress rs p.
Proof. unfold restb1. intros H (i&x&Ht&Hx&Hf). rewrite Ht, Hx in H. by apply N.eqb_eq in H. Qed.
Lemma wrecord1 : wrecord wrs 1 false wdir [b "x"; b "y"] [b "C:"; b "dir"; b "x"] (b "y").
Proof.
  split; [apply ex_drive; by vm_compute| |done|apply handle_check; by vm_compute|apply rest_check1; by vm_compute].
  split; [done|]. apply (bool_decide_unpack _). by vm_compute.
Qed.
(** Channel 1 watched C:\dir by "../dir/..." in C:\w, and channel 2 its working directory
    by ".", and has been stopped; the file y is created, written to and removed in C:\dir\x.
    The handle of C:\w is still open: an Unwatch of an existing directory ends with the
    next record. *)
Example C79_hyps :
  win_api wtr4 wst4 wrtr wrs ∧ wrecord wrs 1 false wdir [b "x"; b "y"] [b "C:"; b "dir"; b "x"] (b "y") ∧ waenv WA ∧
  in_progress wrs (b "C:\w") ∧
  (let got a n v := wheard WA wst4 winjoin (λ _, None) (record_sent wrs 1 (FN a (relname [b "x"; b "y"]))) n v in
   got FILE_ACTION_ADDED 1%positive (Create readdcw) = 1%nat ∧ got FILE_ACTION_MODIFIED 1%positive (Write readdcw) = 1%nat ∧
   got FILE_ACTION_REMOVED 1%positive (Remove readdcw) = 0%nat ∧ got FILE_ACTION_ADDED 1%positive FileActionAdded = 0%nat) ∧
  wreaches wtr4 1 (Create readdcw) [b "C:"; b "dir"; b "x"] (b "y") ∧ ¬ wreaches wtr4 1 (Remove readdcw) [b "C:"; b "dir"; b "x"] (b "y") ∧
  wsubscribed_rec wtr4 1 wdir.
Proof.
  split; [apply wsystem|]. split; [apply wrecord1|]. split; [apply WA_ok|].
  split. { destruct (rs_tab wrs !! b "C:\w") as [i|] eqn:E; [|by vm_compute in E]. destruct (rs_wds wrs !! i) as [x|] eqn:E'.
    - exists i, x. split; [exact E|]. split; [exact E'|]. vm_compute in E. injection E as <-. vm_compute in E'. injection E' as <-. by vm_compute.
    - vm_compute in E. injection E as <-. by vm_compute in E'. }
  split; [split; [by vm_compute|split; [by vm_compute|split; by vm_compute]]|].
  assert (∀ a ge se, (a, (ge, se)) ∈ actions → _) as H by (intros a ge se; exact (C79_generic _ _ _ _ wsystem _ _ _ _ _ _ wrecord1 (λ _, None) WA 1 a ge se WA_ok)).
  split; [apply (H FILE_ACTION_ADDED (Create readdcw) FileActionAdded); [by left|apply Nat.ltb_lt; by vm_compute]|].
  split; [intros Hr; apply (H FILE_ACTION_REMOVED (Remove readdcw) FileActionRemoved) in Hr; [apply Nat.ltb_lt in Hr; vm_compute in Hr; discriminate Hr|right; by left]|].
  exists [], (tl wtr4), ex_os, (b "../dir/..."), [Create readdcw; Write readdcw]. split; [done|]. split; [apply den1|]. split; [done|].
  intros r Hr. apply elem_of_list_In in Hr. by destruct Hr as [Hr|[Hr|[Hr|[]]]].
Qed.
(** A program that watches a directory, stops, and watches it again for something else: all
    calls succeed, but the second Watch finds the directory still in the watcher's table
    (an Unwatch waits for the next report of the OS) and keeps the old filters, so the OS is
    never asked for what the program wants. *)
Definition wa1 : wacall := WAWatch ex_os (b "C:\dir") (Some 1%positive) [Create readdcw].
Definition wa2 : wacall := WAWatch ex_os (b "C:\dir") (Some 1%positive) [Write readdcw].
Definition watr : wtrace := [(wa1, ORet ROk); (WAStop 1, ORet ROk); (wa2, ORet ROk)].
Definition wartr : list rlabel := [LReq (QWatch (b "C:\dir") (Create readdcw) false) true true true] ++ [LReq (QUnwatch (b "C:\dir")) true true true] ++
  [LReq (QWatch (b "C:\dir") (Write readdcw) false) true true true].
Lemma loc4 isrec q : wlocated ex_os (b "C:\dir") isrec q → isrec = false ∧ q = wdir.
Proof. intros H. eapply ex_loc in H as [-> ->]; [|vm_compute; reflexivity..]. split; [done|by vm_compute]. Qed.
Lemma den4 : wdenotes ex_os (b "C:\dir") false wdir.
Proof. split; [by located|by vm_compute]. Qed.
Lemma wa_ok : wacall_ok wa1 ∧ wacall_ok wa2.
Proof.
  split; (split; [apply ex_full_ok|]); (split; [intros ? ? t [_ ->]%loc4; by vm_compute|]); (split; [by intros ? v [[_ [=]]%loc4 _]|]); apply evs_ok; by vm_compute.
Qed.
Lemma waexec_again : waexec watr (ws [wa1; WAStop 1; wa2]).
Proof.
  destruct wa_ok as (Ho1&Ho2).
  assert (waexec [(wa1, ORet ROk)] (ws [wa1])) as H1.
  { apply (wx_call [] init_st WA wa1 (ws [wa1]) (ORet ROk)); [constructor|apply WA_ok|apply WA_obliging| |apply step_eq; [done|by vm_compute]].
    intros _. split; [done|]. split; [by apply one_ev|]. intros isrec p _. split.
    - intros q set Hq _ _ Hm. exfalso. by vm_compute in Hm.
    - intros q Hq _ [x Hm]. exfalso. by vm_compute in Hm. }
  assert (waexec ([(wa1, ORet ROk)] ++ [(WAStop 1, ORet ROk)]) (ws [wa1; WAStop 1])) as H2.
  { apply (wx_call _ (ws [wa1]) WA (WAStop 1) (ws [wa1; WAStop 1]) (ORet ROk) H1); [apply WA_ok|apply WA_obliging| |apply step_eq; [done|by vm_compute]].
    intros _. split; [done|]. intros q Hq Hm. left. keys [wdir] q Hq Hm. apply elem_of_list_singleton in Hin as ->.
    intros i (q'&[Hab Hne]&n&_&(tr1&tr2&o&x&isrec&events&Heq&[Hd _]&_)). exfalso.
    assert ((WAWatch o x (Some n) events, ORet ROk) ∈ [(wa1, ORet ROk)]) as H by (rewrite Heq; apply elem_of_app; right; left).
    apply elem_of_list_singleton in H. assert (o = ex_os ∧ x = b "C:\dir") as [-> ->] by (unfold wa1 in H; split; congruence).
    by destruct (loc4 _ _ Hd) as [_ ->]. }
  apply (wx_call _ (ws [wa1; WAStop 1]) WA wa2 (ws [wa1; WAStop 1; wa2]) (ORet ROk) H2); [apply WA_ok|apply WA_obliging| |apply step_eq; [done|by vm_compute]].
  intros _. split; [done|]. split; [by apply one_ev|]. intros isrec p _. split.
  - intros q set Hq _ _ Hm. exfalso. keys ([] : list path) q Hq (mk_is_Some _ _ Hm). by apply elem_of_nil in Hin.
  - intros q Hq _ Hm. exfalso. keys ([] : list path) q Hq Hm. by apply elem_of_nil in Hin.
Qed.
Theorem C79_again_refuted :
  let s := ws [wa1; WAStop 1; wa2] in let rs := rdfinal false wartr in
  waexec watr s ∧ wdrives (st_log s) wartr ∧ rdexec wartr rs ∧ (∀ x, ¬ in_progress rs x) ∧
  wsubscribed_all watr 1 wdir (Write readdcw) ∧
  ∀ x F k, open_handle rs x (F, k) → F .& fileNotifyChangeModified = 0.
Proof.
  intros s rs. split; [apply waexec_again|]. split.
  { assert (st_log s = [(WWatch (b "C:\dir") (Create readdcw), true)] ++ [(WUnwatch (b "C:\dir"), true)] ++ [(WWatch (b "C:\dir") (Write readdcw), true)]) as -> by (by vm_compute).
    unfold wartr. rewrite !app_assoc. apply wd_call; [|constructor]. apply wd_call; [|constructor]. apply (wd_call [] []); constructor. }
  split; [apply rdfinal_exec; by vm_compute|]. split; [apply rest_check; by vm_compute|]. split.
  { intros i Hi. exists [(wa1, ORet ROk); (WAStop 1, ORet ROk)], [], ex_os, (b "C:\dir"), false, [Write readdcw].
    split; [done|]. split; [apply den4|]. split; [exists (Write readdcw); split; [left|done]|]. intros r Hr. by apply elem_of_nil in Hr. }
  assert (map_Forall (λ _ gr, rd_encode (g_filter gr) .& fileNotifyChangeModified = 0) (rs_grips rs)) as H by (apply (bool_decide_unpack _); by vm_compute).
  intros x F k (g&gr&wd&Hg&_&_&_&[= -> ->]). by apply (H g gr).
Qed.

(** ** The outcomes *)
(** Watch panics on a nil channel, whatever else is given, and on nothing else; with an empty
    event list it returns nil on every path; neither, nor a Watch that cannot make sense of its
    path, changes anything. *)
Theorem C79_outcome tr s o r : waexec tr s → (o, r) ∈ tr →
  (r = OPanic ↔ ∃ w p events, o = WAWatch w p None events) ∧ (∀ w p n, o = WAWatch w p (Some n) [] → r = ORet ROk).
Proof.
  induction 1 as [|tr s E o' s' r' _ IH HE Hb Hok Hs]; [intros H; by apply elem_of_nil in H|].
  intros [H|H%elem_of_list_singleton]%elem_of_app; [by apply IH|]. injection H as -> ->.
  destruct o' as [w p [n|] [|e l]|n]; cbn in Hs.
  - injection Hs as _ <-. split; [|done]. split; [done|]. by intros (?&?&?&[=]).
  - split; [|done]. split; [|by intros (?&?&?&[=])]. destruct (wcleanpath w p) as [[q isrec]|]; [|by injection Hs as _ <-].
    destruct (rec_Watch E s q isrec (KUser n) _) as [s1 r1]. by injection Hs as _ <-.
  - injection Hs as _ <-. split; [|done]. split; [|done]. intros _. eauto.
  - injection Hs as _ <-. split; [|done]. split; [|done]. intros _. eauto.
  - injection Hs as _ <-. split; [|done]. split; [done|]. by intros (?&?&?&[=]).
Qed.
Theorem C79_no_effect E s o s' r : wastep E s o = (s', r) → wvain o ∨ (∃ e, r = OBadPath e) → s' = s.
Proof.
  destruct o as [w p [n|] [|e l]|n]; cbn; intros Hs [Hv|[e' ->]]; try done; try (by injection Hs as <- _).
  destruct (wcleanpath w p) as [[q isrec]|]; [|by injection Hs as <- _]. by destruct (rec_Watch E s q isrec (KUser n) _).
Qed.
Print Assumptions C79_generic.
Print Assumptions C79_names.
Print Assumptions C79_modified.
Print Assumptions C79_nothing_else.
Print Assumptions C79_exact.
Print Assumptions C79_asked.
Print Assumptions C79_hyps.
Print Assumptions C79_again_refuted.
Print Assumptions C79_outcome.
Print Assumptions C79_no_effect.
