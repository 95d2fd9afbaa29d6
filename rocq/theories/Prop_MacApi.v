(** * Property theorem C74: macOS, from the arguments of Watch and the reports of the OS to the channels *)
From Verif Require Import Base Event Watchpoint WatchpointFacts Paths PathsFacts Loop LoopFacts
  Node NodeFacts SpecTree NonRec Rec SpecNonRec SpecNonRecOS SpecOS SpecRec RecRun RecORun Prop_Basics Prop_Rec Prop_RecOS
  Clean SpecClean CleanFacts Prop_Clean Api SpecApi ApiFacts Prop_Api Fsev SpecFsev FsevFacts Prop_Fsev SpecMac Prop_Mac SpecMacApi.
From Verif Require InotifyFacts Prop_LinuxApi.
Local Open Scope N_scope.

Notation mtrans := (trans fsevents).
Notation noroot := (λ _ : str, False).
Lemma rpath_gpath q : rpath slash false noroot q ↔ gpath slash q.
Proof. unfold rpath, gpath. tauto. Qed.
Lemma oexec_paths l s q n : oexec fsevents slash false noroot l s → asked l q n ≠ 0 → gpath slash q.
Proof.
  intros Hx Ha. apply asked_supp in Ha as [Hp _]. unfold paths_of in Hp. apply elem_of_list_omap in Hp as ([o r]&Ho&Hq).
  destruct o as [p isrec m e| |]; try done. injection Hq as ->.
  induction Hx as [|l s E o s' r' Hx IH HE Hob Hok Hor Hs]; [by apply elem_of_nil in Ho|].
  apply elem_of_app in Ho as [Ho|Ho%elem_of_list_singleton]; [by apply IH|]. injection Ho as <- <-. destruct Hok as [H _]. by apply rpath_gpath.
Qed.
Section wanted.
Context (tr : atrace) (trs : list (list (nop * result))) (s : st) (Hu : user_calls fsevents tr) (Ht : Forall2 mtrans tr trs)
  (Hx : oexec fsevents slash false noroot (concat trs) s).
Notation g := (asked (concat trs)).
Lemma sub_ev q n i : gpath slash q → ¬ has (internal fsevents) i → has (g q n) i ↔ subscribed fsevents tr n q i.
Proof.
  intros (H1&_&H2) Hi. rewrite (asked_sub fsevents tr trs) by done. split; [|by left]. intros [|[H _]]; [done|].
  destruct Hi. unfold internal. apply has_lor. by left.
Qed.
Lemma wanted_at q i : gpath slash q → ev_at fsevents g q i ↔ wanted tr None q i.
Proof.
  intros Hq. split.
  - intros (n&Hn&Hi). exists n. split; [done|]. by apply sub_ev.
  - intros (n&_&Hn). pose proof (subscribed_user _ _ _ _ _ Hu Hn) as Hi. exists n. split; [|done]. by apply sub_ev.
Qed.
Lemma wanted_without q n i : gpath slash q → ev_at fsevents (without g n) q i ↔ wanted tr (Some n) q i.
Proof.
  intros Hq. unfold without. split.
  - intros (k&Hk&Hi). destruct (decide (k = n)) as [->|Hne]; [by apply has_0 in Hk|]. exists k. split; [congruence|]. by apply sub_ev.
  - intros (k&Hne&Hk). pose proof (subscribed_user _ _ _ _ _ Hu Hk) as Hi. exists k. rewrite decide_False by congruence. split; [|done]. by apply sub_ev.
Qed.
Lemma above_gpath q q' n i : above q q' → has (g q' n) i → gpath slash q'.
Proof. intros _ H. apply (oexec_paths _ _ q' n Hx). intros H0. rewrite H0 in H. by apply has_0 in H. Qed.
Lemma subscribed_gpath n q i : subscribed fsevents tr n q i → q ≠ [] → gpath slash q.
Proof.
  intros (tr1&tr2&fs&cwd&p&isrec&events&_&Hd&_) Hq. destruct Hd as (_&_&_&_&_&_&Hre).
  split_and!; [done| |by eapply real_proper]. destruct (real_upath fs q Hre) as (_&H&_). by destruct q.
Qed.
Lemma wanted_under q i : ev_below fsevents g q i ↔ wanted_below tr None q i.
Proof.
  split.
  - intros (q'&Hab&Hq'). exists q'. split; [done|]. apply wanted_at; [|done]. destruct Hq' as (n&Hn&_). by eapply above_gpath.
  - intros (q'&Hab&Hq'). exists q'. split; [done|]. apply wanted_at; [|done]. destruct Hq' as (n&_&Hn). eapply subscribed_gpath; [done|].
    intros ->. destruct Hab as [[z Hz] Hne]. by destruct q.
Qed.
Lemma wanted_under_without q n i : ev_below fsevents (without g n) q i ↔ wanted_below tr (Some n) q i.
Proof.
  split.
  - intros (q'&Hab&Hq'). exists q'. split; [done|]. apply wanted_without; [|done]. destruct Hq' as (k&Hk&_). unfold without in Hk.
    destruct (decide (k = n)); [by apply has_0 in Hk|]. by eapply above_gpath.
  - intros (q'&Hab&Hq'). exists q'. split; [done|]. apply wanted_without; [|done]. destruct Hq' as (k&_&Hn). eapply subscribed_gpath; [done|].
    intros ->. destruct Hab as [[z Hz] Hne]. by destruct q.
Qed.
Lemma orderly_trans m o r o' r' : mtrans (o, r) [(o', r')] → acall_rec_ok fsevents o → orderly_call tr m o → orderly fsevents slash false noroot g m o'.
Proof.
  intros Htr Hok Ho. inversion Htr as [| |fs cwd x n events r0 isrec ph Hne Hd|n|ev p]; subst; cbn [orderly_call orderly] in *; [| |done].
  - destruct Ho as [He Ho]. destruct (Ho isrec ph Hd) as [H1 H2]. destruct ph as [|c ph]; [by destruct Hok as [_ Hr]; destruct (Hr isrec)|]. cbn [nodeof].
    assert (∀ i, has (joinevents fsevents events) i ↔ ∃ e, e ∈ events ∧ has e i) as Hj by (intros i; by apply C01_union). split_and!.
    + destruct He as (e&He&[i Hi]%nonzero_bit). apply nonzero_bit. exists i. apply Hj. by exists e.
    + intros q set Hq%rpath_gpath Hpre Hor Hm Hin. destruct (H1 q set Hq Hpre Hor Hm) as (e'&j&He'&Hej&Hn). apply Hn, Hin, Hj. by exists e'.
    + intros q Hq%rpath_gpath Hab Hm. destruct (H2 q Hq Hab Hm) as [n' Hn']. exists n'. destruct Hq as (Hq1&_&Hq2).
      apply nonzero_bit. destruct Hn' as [[i Hi]|Hr].
      * exists i. apply (asked_sub fsevents tr trs); try done. by left.
      * destruct (pok_single _ mac_ok (recursive fsevents)) as [j Hj']; [unfold consts; set_solver|].
        assert (has (recursive fsevents) j) as Hrj by (rewrite Hj'; unfold has; apply N.pow2_bits_true).
        exists j. apply (asked_sub fsevents tr trs); try done. by right.
  - intros q Hq%rpath_gpath Hm. destruct (Ho q Hq Hm) as [H|[(i&H1&H2)|H]]; [left|right; left|right; right].
    + intros i Hi%wanted_under. by apply wanted_under_without, H.
    + exists i. rewrite wanted_at, wanted_without by done. done.
    + intros i Hi%wanted_at; [|done]. by apply wanted_under_without, H.
Qed.
End wanted.
Lemma mlexec_user tr s : mlexec tr s → user_calls fsevents tr.
Proof.
  induction 1 as [|tr s E o s' r _ IH HE Hob Hok Hs]; intros o' r' Ho Hv; [by apply elem_of_nil in Ho|].
  apply elem_of_app in Ho as [Ho|Ho%elem_of_list_singleton]; [by eapply IH|]. injection Ho as -> ->. by apply Hok.
Qed.
Lemma mlexec_mexec tr s : mlexec tr s → ∃ trs, Forall2 mtrans tr trs ∧ oexec fsevents slash false noroot (concat trs) s.
Proof.
  intros Hmx. induction Hmx as [|tr s E o s' r Hx (trs&Ht&IH) HE Hob Hok Hs]; [exists []; by split; [|constructor]|].
  destruct (rec_trans fsevents E s o s' r HE (λ H, proj1 (Hok H)) Hs) as [[Htr ->]|(o'&r'&Htr&Ho&Hs')].
  - exists (trs ++ [[]]). split; [by apply Forall2_app; [|constructor]|]. by rewrite concat_app, app_nil_r.
  - assert (¬ vain o) as Hv. { inversion Htr as [| |? ? ? ? events ? ? ? He| |]; subst; [destruct events; [done|simpl; tauto]|simpl; tauto..]. }
    destruct (Hok Hv) as [Hr Hor].
    exists (trs ++ [[(o', r')]]). split; [by apply Forall2_app; [|constructor]|]. rewrite concat_app.
    eapply oexec_step; try done. eapply orderly_trans; try done. by eapply mlexec_user.
Qed.

Definition passes_at (m : fstab) (q : path) (ev : fsevent) (j : N) (k : nat) : Prop :=
  match m !! render fslash (take k q) with
  | Some x => fw_flushed x = true ∧ has (strip1 (default 0 (fw_prev x !! tail (render fslash (drop k q)))) (fe_flags ev)).2 j
  | None => False
  end.
Global Instance passes_at_dec m q ev j k : Decision (passes_at m q ev j k).
Proof. unfold passes_at. destruct (m !! _); apply _. Defined.
Lemma passes_dec m q ev j : passes m q ev j ∨ ¬ passes m q ev j.
Proof.
  destruct (decide (Exists (passes_at m q ev j) (seq 0 (S (length q))))) as [H|H].
  - left. apply Exists_exists in H as (k&_&Hk). unfold passes_at in Hk. destruct (m !! _) as [x|] eqn:Hm; [|done]. destruct Hk as [Hf Hk].
    exists (take k q), (drop k q), x. by rewrite take_drop.
  - right. intros (p&r&x&->&Hp&Hf&Hk). apply H, Exists_exists. exists (length p). split; [apply elem_of_seq; rewrite app_length; lia|].
    unfold passes_at. by rewrite take_app, drop_app, Hp.
Qed.
Section sys.
Context (tr : atrace) (s : st) (m : fstab) (Hsys : mac_api tr s m) (ev : fsevent) (d : path) (c : str) (Hev : report ev d c).
Notation menv := (renv fsevents slash false noroot).
Lemma api_mac : ∃ trs, Forall2 mtrans tr trs ∧ mexec (concat trs) s.
Proof. destruct Hsys as [Hx _]. by apply mlexec_mexec in Hx. Qed.
Lemma report_reaches trs n j : Forall2 mtrans tr trs → ¬ has (internal fsevents) j →
  (0 < deliveries fsevents (asked (concat trs)) n (2 ^ j) d c)%nat ↔ reaches fsevents tr n (2 ^ j) d c.
Proof.
  intros Ht Hj. destruct Hev as (Hd0&[Hd1 Hd2]&Hc&_). apply (reaches_deliveries _ mac_ok); try done.
  - destruct Hsys as [Hx _]. by eapply mlexec_user.
  - by apply N.pow_nonzero.
  - intros i Hi Hi'. assert (i = j) as -> by (by apply InotifyFacts.has_pow2 in Hi). done.
Qed.
(** Each flag of a report that passes the watch is offered exactly to the channels that
    asked for it, with whatever path, on the file, on its directory, or with "..." on a
    directory further above; no other flag is offered. *)
Theorem C74_only E n j : menv E → ¬ has (internal fsevents) j →
  (0 < heard E s m ev n j)%nat ↔ passes m (d ++ [c]) ev j ∧ reaches fsevents tr n (2 ^ j) d c.
Proof.
  intros HE Hj. destruct api_mac as (trs&Ht&Hx). rewrite <-(report_reaches trs) by done.
  destruct (C68_exact (concat trs) s m Hx (ma_run _ _ _ Hsys) ev d c Hev E n j HE Hj) as [H1 H2].
  destruct (passes_dec m (d ++ [c]) ev j) as [Hp|Hp].
  - rewrite H1 by done. tauto.
  - rewrite H2 by done. split; [lia|]. by intros [? _].
Qed.
(** How often: as often as the subscriptions of the channel, taken together for each
    path, demand. *)
Theorem C74_exact : ∃ g,
  (∀ n q i, q ≠ [] → [] ∉ q → has (g q n) i ↔ subscribed fsevents tr n q i ∨ has (recursive fsevents) i ∧ subscribed_rec fsevents tr n q) ∧
  (∀ n, g [] n = 0) ∧
  ∀ E n j, menv E → ¬ has (internal fsevents) j → passes m (d ++ [c]) ev j → heard E s m ev n j = deliveries fsevents g n (2 ^ j) d c.
Proof.
  destruct api_mac as (trs&Ht&Hx). exists (asked (concat trs)).
  split_and!; [intros; by apply asked_sub|intros; by eapply asked_root|]. intros E n j HE Hj Hp.
  by apply (C68_exact (concat trs) s m Hx (ma_run _ _ _ Hsys) ev d c Hev E n j HE Hj).
Qed.
(** When the history of every stream is over, the flags of a report other than the four
    that are subject to the heuristics reach every channel that asked for them. *)
Theorem C74_delivered E n j : menv E → ¬ has (internal fsevents) j →
  (∀ p x, m !! p = Some x → fw_flushed x = true) → has (fe_flags ev) j →
  ¬ has (FSEventsCreated .| FSEventsRemoved .| FSEventsModified .| FSEventsInodeMetaMod) j →
  (0 < heard E s m ev n j)%nat ↔ reaches fsevents tr n (2 ^ j) d c.
Proof.
  intros HE Hj Hf Hfl Hh. destruct api_mac as (trs&Ht&Hx). rewrite <-(report_reaches trs) by done.
  by rewrite (C68_delivered (concat trs) s m Hx (ma_run _ _ _ Hsys) ev d c Hev E n j).
Qed.
(** So does Created, unless the watch remembers that the file was last created. *)
Theorem C74_created E n : menv E →
  (∀ p x, m !! p = Some x → fw_flushed x = true) → has (fe_flags ev) 8 →
  (∀ p r x, d ++ [c] = p ++ r → m !! render fslash p = Some x → fw_prev x !! tail (render fslash r) ≠ Some FSEventsCreated) →
  (0 < heard E s m ev n 8)%nat ↔ reaches fsevents tr n FSEventsCreated d c.
Proof.
  intros HE Hf Hfl Hprev. destruct api_mac as (trs&Ht&Hx).
  rewrite (C68_created (concat trs) s m Hx (ma_run _ _ _ Hsys) ev d c Hev E n HE Hf Hfl Hprev).
  apply (report_reaches trs n 8); [done|by vm_compute].
Qed.
End sys.

(** ** Instance *)
From Verif Require Import NonRecRun.
Notation den1 := Prop_LinuxApi.fs1_den1.
Notation den2 := Prop_LinuxApi.fs1_den2.
Definition sM0 : st := (arun rec_api L init_st (calls fs1 fsevents)).2.
Definition sM : st := (astep rec_api L sM0 (AStop 2)).1.
Definition atrM : atrace := atr fs1 fsevents ++ [(AStop 2, ORet ROk)].
Definition macM : fstab := flush (replay ∅ (st_log sM)) [b "/d/e"; b "/f"].
Definition evM : fsevent := FSEvent (b "/d/e/x/y") 1 (FSEventsCreated .| FSEventsModified .| FSEventsRenamed).
Lemma sub_cases n q i : subscribed fsevents (atr fs1 fsevents) n q i → q = [b "d"; b "e"] ∨ q = [b "f"].
Proof.
  intros (tr1&tr2&fs&cwd&x&isrec&events&Heq&Hd&(e&He&_)&_).
  assert ((AWatch fs cwd x (Some n) events, ORet ROk) ∈ atr fs1 fsevents) as H by (rewrite Heq; apply elem_of_app; right; left). clear Heq.
  unfold atr, calls, outcomes1 in H. cbn [zip zip_with] in H. revert H Hd. generalize den1 den2. generalize fs1. intros fs' H1 H2 H Hd.
  rewrite !elem_of_cons, elem_of_nil in H.
  destruct H as [H|[H|[H|[H|[H|[]]]]]]; try done; injection H as -> -> -> _ H.
  - left. by destruct (denotes_det _ _ _ _ _ _ _ Hd H1).
  - right. by destruct (denotes_det _ _ _ _ _ _ _ Hd H2).
  - subst. by apply elem_of_nil in He.
Qed.
Definition steps (k : nat) : st := (arun rec_api L init_st (take k (calls fs1 fsevents))).2.
Lemma watched_in (t : ostab) (ks : list path) q : Forall (gpath slash) ks → map_Forall (λ k _, k ∈ (render slash <$> ks)) t →
  gpath slash q → is_Some (t !! render slash q) → q ∈ ks.
Proof.
  intros Hks Ht (_&Hq&_) [x Hx]. apply Ht, elem_of_list_fmap in Hx as (q'&He&Hq'). apply Forall_forall with (x := q') in Hks; [|done].
  destruct Hks as (_&Hc&_). by rewrite (render_inj slash q q').
Qed.
Lemma fs1_good : Forall (λ o, ¬ vain o → acall_rec_ok fsevents o) (calls fs1 fsevents).
Proof. apply calls_rec_ok; [apply fs1_ok|apply fs1_ok|by vm_compute..]. Qed.
Local Ltac keys ks q Hq Hm := assert (q ∈ (ks : list path)) as Hin
  by (refine (watched_in _ ks q _ _ Hq Hm); [repeat (apply Forall_cons; split; [apply gpathb_ok; by vm_compute|]); by apply Forall_nil|apply (bool_decide_unpack _); by vm_compute]).
Lemma not_missing isrec q : ¬ denotes fs1 None (b "/d/missing") isrec q.
Proof.
  intros (p'&a&Hp&Hn&Ha&Hr&_).
  destruct (C15_error_partial fs1 None (b "/d/missing") EStat (proj1 fs1_ok) (proj2 fs1_ok)) as (a'&Ha'&Hno); [by intros w [=]|by vm_compute|].
  destruct isrec; [apply (f_equal reverse) in Hp; by rewrite reverse_app in Hp|].
  rewrite app_nil_r in Hp. subst p'. change ((cutdots (b "/d/missing")).1) with (b "/d/missing") in Ha'. rewrite Ha' in Ha. injection Ha as <-. by apply (Hno q).
Qed.
Lemma mlexecM0 : mlexec (atr fs1 fsevents) sM0.
Proof.
  pose proof fs1_good as Hok. revert Hok. unfold calls.
  intros (Ho1&(Ho2&(_&(_&(Ho5&_)%Forall_cons_1)%Forall_cons_1)%Forall_cons_1)%Forall_cons_1)%Forall_cons_1.
  assert (∀ e l, e ≠ 0 → ∃ x, x ∈ (e :: l) ∧ x ≠ 0) as Hev by (intros e l He; exists e; split; [left|done]).
  assert (mlexec (take 1 (atr fs1 fsevents)) (steps 1)) as H1.
  { apply (mx_call [] init_st L (AWatch fs1 (Some (b "/d")) (b "abs/...") (Some 1%positive) [Create fsevents; Write fsevents]) (steps 1) (ORet ROk)); [constructor|apply menv_ok|apply L_obliging| |by vm_compute].
    intros Hv. split; [by apply Ho1|]. split; [by apply Hev|]. intros isrec p _. split.
    - intros q set Hq _ _ Hm. exfalso. by vm_compute in Hm.
    - intros q Hq _ [x Hm]. exfalso. by vm_compute in Hm. }
  assert (mlexec (take 2 (atr fs1 fsevents)) (steps 2)) as H2.
  { apply (mx_call _ (steps 1) L (AWatch fs1 (Some (b "/d")) (b "../f") (Some 2%positive) [Write fsevents; Remove fsevents]) (steps 2) (ORet ROk)) in H1; [exact H1|apply menv_ok|apply L_obliging| |by vm_compute].
    intros Hv. split; [by apply Ho2|]. split; [by apply Hev|]. intros isrec p Hd. destruct (denotes_det _ _ _ _ _ _ _ Hd den2) as [-> ->]. split.
    - intros q set Hq Hpre Hor Hm. keys [[b "d"; b "e"]] q Hq (mk_is_Some _ _ Hm). apply elem_of_list_singleton in Hin as ->. by destruct Hpre.
    - intros q Hq [Hpre _] Hm. keys [[b "d"; b "e"]] q Hq Hm. apply elem_of_list_singleton in Hin as ->. by destruct Hpre. }
  assert (mlexec (take 3 (atr fs1 fsevents)) (steps 3)) as H3.
  { apply (mx_call _ (steps 2) L (AWatch fs1 None (b "missing") (Some 2%positive) []) (steps 3) (ORet ROk)) in H2; [exact H2|apply menv_ok|apply L_obliging| |by vm_compute].
    intros Hv. by destruct Hv. }
  assert (mlexec (take 4 (atr fs1 fsevents)) (steps 4)) as H4.
  { apply (mx_call _ (steps 3) L (AWatch fs1 None (b "/d") None [Write fsevents]) (steps 4) OPanic) in H3; [exact H3|apply menv_ok|apply L_obliging| |by vm_compute].
    intros Hv. by destruct Hv. }
  apply (mx_call _ (steps 4) L (AWatch fs1 None (b "/d/missing") (Some 3%positive) [Write fsevents]) sM0 (OBadPath EStat)) in H4; [exact H4|apply menv_ok|apply L_obliging| |by vm_compute].
  intros Hv. split; [by apply Ho5|]. split; [by apply Hev|]. intros isrec p Hd. by apply not_missing in Hd.
Qed.
Lemma step_eq {A B} (x : A * B) a c : x.1 = a → x.2 = c → x = (a, c).
Proof. destruct x. by intros <- <-. Qed.
Lemma mlexecM : mlexec atrM sM.
Proof.
  apply (mx_call (atr fs1 fsevents) sM0 L (AStop 2) sM (ORet ROk) mlexecM0); [apply menv_ok|apply L_obliging| |apply step_eq; [done|by vm_compute]].
  intros _. split; [done|]. intros q Hq Hm. left. intros i (q'&[Hab Hne]&n&_&Hs%sub_cases). exfalso.
  keys [[b "d"; b "e"]; [b "f"]] q Hq Hm. rewrite !elem_of_cons, elem_of_nil in Hin.
  destruct Hin as [->|[->|[]]], Hs as [->| ->]; (done || (destruct Hab; done)).
Qed.
Lemma systemM : mac_api atrM sM macM.
Proof. split; [apply mlexecM|]. apply replay_flush. by vm_compute. Qed.
(** Channel 1 watched the directory /d/e by the path "abs/..." in /d, channel 2 the file
    /f by "../f" and has been stopped.  Something is created, modified and renamed to /d/e/x/y. *)
Example C74_hyps :
  mac_api atrM sM macM ∧ report evM [b "d"; b "e"; b "x"] (b "y") ∧ renv fsevents slash false noroot L ∧
  (∀ p x, macM !! p = Some x → fw_flushed x = true) ∧ (∀ p r x, [b "d"; b "e"; b "x"] ++ [b "y"] = p ++ r →
    macM !! render fslash p = Some x → fw_prev x !! tail (render fslash r) ≠ Some FSEventsCreated) ∧
  reaches fsevents atrM 1 FSEventsCreated [b "d"; b "e"; b "x"] (b "y") ∧ ¬ reaches fsevents atrM 1 FSEventsRenamed [b "d"; b "e"; b "x"] (b "y") ∧
  heard L sM macM evM 1 8 = 1%nat ∧ heard L sM macM evM 1 11 = 0%nat.
Proof.
  assert (report evM [b "d"; b "e"; b "x"] (b "y")) as Hr.
  { split_and!; try (by vm_compute); [split; apply (bool_decide_unpack _); by vm_compute|]. apply (bool_decide_unpack _). by vm_compute. }
  assert (map_Forall (λ _ x, fw_flushed x = true ∧ fw_prev x = ∅) macM) as H by (apply (bool_decide_unpack _); by vm_compute).
  assert (∀ p x, macM !! p = Some x → fw_flushed x = true) as Hf by (intros p x Hp; by apply (H p x)).
  assert (∀ p r x, [b "d"; b "e"; b "x"] ++ [b "y"] = p ++ r → macM !! render fslash p = Some x → fw_prev x !! tail (render fslash r) ≠ Some FSEventsCreated) as Hp.
  { intros p r x _ Hx. apply H in Hx as [_ ->]. by rewrite lookup_empty. }
  assert (heard L sM macM evM 1 8 = 1%nat) as H8 by (by vm_compute).
  assert (heard L sM macM evM 1 11 = 0%nat) as H11 by (by vm_compute).
  split; [apply systemM|]. split; [exact Hr|]. split; [apply menv_ok|]. split; [exact Hf|]. split; [exact Hp|].
  split; [|split; [|split; [exact H8|exact H11]]].
  - apply (C74_created _ _ _ systemM evM _ _ Hr L 1 (menv_ok _)); [exact Hf|by vm_compute|exact Hp|]. rewrite H8. lia.
  - intros Hre. change FSEventsRenamed with (2 ^ 11) in Hre.
    apply (C74_delivered _ _ _ systemM evM _ _ Hr L 1 11 (menv_ok _)) in Hre; [|by vm_compute|exact Hf|by vm_compute|by vm_compute].
    rewrite H11 in Hre. lia.
Qed.

Print Assumptions C74_only.
Print Assumptions C74_exact.
Print Assumptions C74_delivered.
Print Assumptions C74_created.
Print Assumptions C74_hyps.
