(** * Property theorems C86: laws of Watch and Stop *)
From Verif Require Import Base Event Watchpoint WatchpointFacts Paths PathsFacts Loop LoopFacts Node NodeFacts NonRec NonRecWp Rec Clean SpecClean CleanFacts
  SpecTree SpecNonRec SpecNonRecOS SpecOS SpecRec RecMask NonRecFacts NonRecOps NonRecStep NonRecStop NonRecCov NonRecRun RecRun
  Prop_Basics Prop_NonRec Prop_Rec Prop_Clean Api SpecApi ApiFacts Prop_Api Prop_LinuxApi LawsFacts SpecLaws.
Local Open Scope N_scope.

(** ** Equal subscriptions, equal offers *)
Section same.
Context (P : platform) (HP : platform_ok P).
Lemma g_det (g g' : path → positive → N) tr tr' n :
  (∀ q i, q ≠ [] → [] ∉ q → has (g q n) i ↔ subscribed P tr n q i ∨ has (recursive P) i ∧ subscribed_rec P tr n q) →
  (∀ q i, q ≠ [] → [] ∉ q → has (g' q n) i ↔ subscribed P tr' n q i ∨ has (recursive P) i ∧ subscribed_rec P tr' n q) →
  (∀ q i, subscribed P tr n q i ↔ subscribed P tr' n q i) → (∀ q, subscribed_rec P tr n q ↔ subscribed_rec P tr' n q) →
  ∀ q, q ≠ [] → [] ∉ q → g q n = g' q n.
Proof. intros Hg Hg' H1 H2 q Hq Hq'. apply has_ext. intros i. by rewrite Hg, Hg', H1, H2. Qed.
Lemma proper_prefix d c q : gpath slash d → c ≠ [] → q `prefix_of` d ++ [c] → [] ∉ q.
Proof.
  intros (_&_&Hd) Hc [z Hz] Hin. assert ([] ∈ d ++ [c]) as H by (rewrite Hz; apply elem_of_app; by left).
  apply elem_of_app in H as [H|H%elem_of_list_singleton]; done.
Qed.
(** What a channel is offered depends only on its subscriptions. *)
Theorem C86_same_unix tr tr' s s' E E' ei d c n : windows P = false →
  aexec_nr P tr s → aexec_nr P tr' s' → not_refused tr → not_refused tr' → nenv P slash E → nenv P slash E' → event_on P ei d c →
  (∀ q i, subscribed P tr n q i ↔ subscribed P tr' n q i) → (∀ q, subscribed_rec P tr n q ↔ subscribed_rec P tr' n q) →
  offered E s ei (KUser n) = offered E' s' ei (KUser n).
Proof.
  intros HW Hx Hx' Hn Hn' HE HE' (Hev&Hint&Hen) H1 H2.
  destruct (C65_exact P HP HW tr s Hx Hn) as (g&Hg&Hg0&Hoff). destruct (C65_exact P HP HW tr' s' Hx' Hn') as (g'&Hg'&Hg0'&Hoff').
  rewrite (Hoff E ei d c n), (Hoff' E' ei d c n) by done. destruct Hen as (Hd&Hc&_).
  apply deliveries_ext. intros q Hq. destruct (decide (q = [])) as [->|Hq0]; [by rewrite Hg0, Hg0'|].
  eapply g_det; [intros; by apply Hg|intros; by apply Hg'|done|done|done|by eapply proper_prefix].
Qed.
End same.
Theorem C86_same_macos tr tr' s s' E E' ei d c n :
  aexec_rec fsevents tr s → aexec_rec fsevents tr' s' → never_refused tr → never_refused tr' →
  renv fsevents slash false (λ _, False) E → renv fsevents slash false (λ _, False) E' → event_on fsevents ei d c →
  (∀ q i, subscribed fsevents tr n q i ↔ subscribed fsevents tr' n q i) →
  (∀ q, subscribed_rec fsevents tr n q ↔ subscribed_rec fsevents tr' n q) →
  rec_offered E s ei (KUser n) = rec_offered E' s' ei (KUser n).
Proof.
  intros Hx Hx' Hnr Hnr' HE HE' (Hev&Hint&Hd&Hc&Hcok&Hp) H1 H2.
  destruct (aexec_rec_rexec fsevents tr s Hx) as (trs&Ht&Hn). destruct (aexec_rec_rexec fsevents tr' s' Hx') as (trs'&Ht'&Hn').
  rewrite (C30_exact_delivery fsevents fsevents_ok) with (sepc := slash) (w := false) (isvol := λ _, False) (tr := concat trs) (d := d) (c := c); try done.
  2: by eapply trans_all_ok.
  2: destruct Hd as (Hd0&Hd1&Hd2); by split_and!.
  rewrite (C30_exact_delivery fsevents fsevents_ok) with (sepc := slash) (w := false) (isvol := λ _, False) (tr := concat trs') (d := d) (c := c); try done.
  2: by eapply trans_all_ok.
  2: destruct Hd as (Hd0&Hd1&Hd2); by split_and!.
  apply deliveries_ext. intros q Hq. destruct (decide (q = [])) as [->|Hq0].
  { by rewrite (asked_root fsevents tr trs n Ht), (asked_root fsevents tr' trs' n Ht'). }
  eapply (g_det fsevents); [intros; by apply asked_sub|intros; by apply asked_sub|done|done|done|by eapply proper_prefix].
Qed.

(** ** The laws *)
Section laws.
Context (P : platform) (HP : platform_ok P).
Lemma alike_via tr tr' : (∀ n q i, subscribed P tr n q i ↔ subscribed P tr' n q i) →
  (∀ n q, subscribed_rec P tr n q ↔ subscribed_rec P tr' n q) → alike P tr tr'.
Proof.
  intros H1 H2. split.
  - intros HW s s' E E' ei d c n Hx Hx' Hn Hn' HE HE' Hev. by eapply (C86_same_unix P HP tr tr').
  - intros -> s s' E E' ei d c n Hx Hx' Hn Hn' HE HE' Hev. by eapply (C86_same_macos tr tr').
Qed.
Lemma alike_subs tr tr' : (∀ n, same_subs P n tr tr') → alike P tr tr'.
Proof. intros H. apply alike_via; intros; [by apply same_subs_subscribed|by apply same_subs_rec]. Qed.
(** Calls of Watch with no call of Stop and no event between them may be made in any
    order. *)
Theorem C86_order a l l' z : only_watches l → l ≡ₚ l' → alike P (a ++ l ++ z) (a ++ l' ++ z).
Proof.
  intros Hl Hp. apply alike_subs. intros n. apply same_subs_mid, same_subs_order; [|done].
  apply Forall_forall. intros [o r] Hx. by apply (Hl o r).
Qed.
(** One call with several events is as good as several calls. *)
Theorem C86_split a fs cwd p c x y z :
  alike P (a ++ [(AWatch fs cwd p c (x ++ y), ORet ROk)] ++ z)
    (a ++ [(AWatch fs cwd p c x, ORet ROk); (AWatch fs cwd p c y, ORet ROk)] ++ z).
Proof. apply alike_subs. intros n. apply same_subs_mid, same_subs_split. Qed.
(** A channel that is stopped is as good as new. *)
Theorem C86_forget a n r z : alike P (filter (not_for n) a ++ (AStop n, r) :: z) (a ++ (AStop n, r) :: z).
Proof. apply alike_subs. intros m. apply (same_subs_forget P m n r a z). Qed.
(** Stopping it again, with no Watch in between, makes no difference. *)
Theorem C86_stop_again a n r l z : (∀ fs cwd p ev, (AWatch fs cwd p (Some n) ev, ORet ROk) ∉ l) →
  alike P (a ++ ((AStop n, r) :: l ++ [(AStop n, r)]) ++ z) (a ++ ((AStop n, r) :: l) ++ z).
Proof. intros Hl. apply alike_subs. intros m. by apply same_subs_mid, same_subs_stop. Qed.
(** A Watch for what the channel already watches makes no difference. *)
Theorem C86_again a fs cwd p n ev isrec q z :
  denotes fs cwd p isrec q → watched P a isrec n q ev →
  alike P (a ++ [(AWatch fs cwd p (Some n) ev, ORet ROk)] ++ z) (a ++ z).
Proof.
  intros Hd (tr1&tr2&fs'&cwd'&p'&ev'&isrec'&Ha&Hd'&Hrec&Hne&Hev&Hk).
  assert (∀ (f : path → fsys → option str → str → list N → Prop), (∀ q', f q' fs cwd p ev → q' = q ∧ f q' fs' cwd' p' ev') → ∀ m q',
    by_watch P (f q') (a ++ [(AWatch fs cwd p (Some n) ev, ORet ROk)] ++ z) m q' ↔ by_watch P (f q') (a ++ z) m q') as Hmain.
  { intros f Hf m q'. rewrite !by_watch_app, by_watch_1.
    split; [|intros [[H1 H2]|H]; [left; split; [done|]; apply kept_app; split; [apply kept_watches; constructor; [eauto 10|constructor]|done]|right; by right]].
    intros [[H1 [_ H2]%kept_app]|[[(fs0&cwd0&p0&ev0&[= <- <- <- <- <-]&Hfe) H2]|H]]; [by left| |by right].
    apply Hf in Hfe as [-> Hfe]. left. split; [|done]. rewrite Ha. by exists tr1, tr2, fs', cwd', p', ev'. }
  apply alike_via.
  - intros m q' i. rewrite !subscribed_by.
    apply (Hmain (λ q' fs cwd p ev, (∃ isrec, denotes fs cwd p isrec q') ∧ ∃ e, e ∈ ev ∧ has e i)).
    intros q0 [[isrec0 Hd0] (e&He&Hi)]. destruct (denotes_det _ _ _ _ _ _ _ Hd0 Hd) as [_ ->]. split; [done|]. split; [eauto|]. by apply (Hev e i).
  - intros m q'. rewrite !subscribed_rec_by.
    apply (Hmain (λ q' fs cwd p ev, denotes fs cwd p true q' ∧ ev ≠ [])).
    intros q0 [Hd0 _]. destruct (denotes_det _ _ _ _ _ _ _ Hd0 Hd) as [<- ->]. split; [done|]. split; [|done].
    by rewrite (Hrec eq_refl) in Hd'.
Qed.
End laws.

(** ** Calls that do nothing *)
Section silent.
Context (P : platform) (HP : platform_ok P).
(** Linux, BSD, Solaris: ... and nothing at all happens, in particular the OS is not
    called, whatever it would have answered; Watch returns nil. *)
Theorem C86_again_silent tr s E fs cwd p n ev isrec q s' r :
  aexec_nr P tr s → nenv P slash E → acall_ok P (AWatch fs cwd p (Some n) ev) →
  denotes fs cwd p isrec q → watched P tr isrec n q ev → (∃ e i, e ∈ ev ∧ has e i) →
  astep nr_api E s (AWatch fs cwd p (Some n) ev) = (s', ORet r) → s' = s ∧ r = ROk.
Proof.
  intros Hx HE Hok Hd (tr1&tr2&fs'&cwd'&p'&ev'&isrec'&Ha&Hd'&Hrec&Hne'&Hev&Hk) (e0&i0&He0&Hi0) Hs.
  assert (ev ≠ []) as Hne by (intros ->; by apply elem_of_nil in He0).
  destruct (aexec_nr_nexec P tr s Hx) as (trs&Ht&Hn).
  assert (∀ o r', (o, r') ∈ tr → ¬ vain o → acall_ok P o) as Hall by (intros o r' Ho Hv; exact (aexec_ok _ _ _ _ _ _ _ _ Hx Ho Hv)).
  assert (acall_ok P (AWatch fs' cwd' p' (Some n) ev')) as Hok'.
  { apply (Hall _ (ORet ROk)); [rewrite Ha; apply elem_of_app; right; left|]. destruct ev'; [done|by intros []]. }
  assert (in_force_any P (concat trs) isrec' (nodeof q) n (joinevents P ev')) as Hf.
  { rewrite Ha in Ht. apply Forall2_app_inv_l in Ht as (trs1&l&Ht1&Hl&->). apply Forall2_cons_inv_l in Hl as (x&trs2&Htr&Ht2&->).
    inversion Htr as [? ? Hv| |? ? ? ? ? ? isrec0 ph _ Hd0| |]; subst; [by destruct ev'|].
    destruct (denotes_det _ _ _ _ _ _ _ Hd0 Hd') as [-> ->].
    destruct (kept_nops P tr2 trs2 n q Ht2) as [K1 K2]; [|done|].
    { intros p0 r0 H0. apply (Hall (AEvent (Remove P) p0) r0); [apply elem_of_app; right; by right|by intros []]. }
    exists (concat trs1), (concat trs2). rewrite concat_app. cbn [concat]. by split_and!. }
  set (e := joinevents P ev) in *. set (e' := joinevents P ev') in *.
  assert (incl_ev e e') as Hi.
  { intros i. unfold e, e'. rewrite !C01_union by done. intros (x&Hx1&Hx2). by apply (Hev x i). }
  assert (e ≠ 0) as Hz by (intros Hz; assert (has e i0) as H0 by (apply C01_union; eauto); rewrite Hz in H0; by apply has_0 in H0).
  destruct (nexec_inv P HP slash _ _ Hn) as [Hti _].
  assert (upath slash (nodeof q)) as Hu by (apply (real_upath fs); by destruct Hd as (?&?&?&?&?&?&?)).
  pose proof (in_force_regs P HP slash _ _ _ _ _ _ Hn Hf) as Hreg.
  destruct (nr_trans P E s _ _ _ HE (λ _, Hok) Hs) as [[Htr _]|(o'&r'&Htr&_&Hst)].
  { inversion Htr as [? ? Hv| | | |]; subst. by destruct ev. }
  inversion Htr as [|? ? ? ? ? ?|? ? ? ? ? ? isrec0 ph _ Hd0| |]; subst. destruct (denotes_det _ _ _ _ _ _ _ Hd0 Hd) as [-> ->].
  destruct isrec.
  - specialize (Hrec eq_refl) as ->. destruct Hok' as (_&_&_&Hue). destruct (joinevents_ok P ev' Hue Hne') as [_ Hue'].
    assert (e' ≠ 0) as Hz' by (intros H0; apply Hz; rewrite H0 in Hi; clear - Hi; bits).
    destruct (in_force_rec P HP slash _ _ _ _ _ Hn Hz' Hue' Hf) as (x&Hr&Hxi). fold e' in Hxi. fold e in Hst.
    rewrite (rec_again P HP slash E s (nodeof q) n e x) in Hst; [by injection Hst as <- <-|done..| |done|].
    + cbn [rec_bit] in Hreg. fold e' in Hreg. clear - Hreg Hi. bits.
    + clear - Hxi Hi. bits.
  - fold e in Hst. rewrite (plain_again P slash E s (nodeof q) n e) in Hst; [by injection Hst as <- <-|done..|].
    fold e' in Hreg. clear - Hreg Hi. bits.
Qed.
(** After a Stop, a Stop with a channel that was passed to no Watch since it was last
    stopped changes nothing and does not call the OS. *)
Theorem C86_stop_silent tr s E E' n m :
  aexec_nr P tr s → nenv P slash E → nenv P slash E' → idle (tr ++ [(AStop n, ORet ROk)]) m →
  let s1 := api_Stop nr_api E s n in let s2 := api_Stop nr_api E' s1 m in
  st_tree s2 = st_tree s1 ∧ st_log s2 = st_log s1 ∧ st_panic s2 = st_panic s1.
Proof.
  intros Hx HE HE' Hid. cbn zeta. destruct (aexec_nr_nexec P tr s Hx) as (trs&Ht&Hn).
  destruct (nexec_inv P HP slash _ _ Hn) as [Hti _].
  assert (nexec P slash (concat trs ++ [(NStop n, ROk)]) (nr_Stop E s (KUser n))) as Hn1 by (by apply (nexec_step P slash (concat trs) s E (NStop n) _ ROk)).
  change (api_Stop nr_api E s n) with (nr_Stop E s (KUser n)).
  apply (stop_twice P HP slash E E' s n m HE HE' Hti). intros p.
  destruct (wp_at (st_tree (nr_Stop E s (KUser n))) p !! KUser m) as [w|] eqn:Ew; [|done]. exfalso.
  destruct (nexec_outstanding P HP slash _ _ Hn1) as [H1 _].
  destruct (H1 p m) as (l1&p0&isrec&e&r&l2&Heq&Hst); [unfold users; rewrite Ew; by eexists|].
  assert (Forall2 (trans P) (tr ++ [(AStop n, ORet ROk)]) (trs ++ [[(NStop n, ROk)]])) as Ht1.
  { apply Forall2_app; [done|]. constructor; [constructor|constructor]. }
  assert (concat (trs ++ [[(NStop n, ROk)]]) = l1 ++ (NWatch p0 isrec m e, r) :: l2) as Hc by (by rewrite concat_app).
  destruct (trans_split P _ _ _ _ _ Ht1 Hc) as (tr1&x&tr2&trs1&trs2&Htr&Hx0&_&Ht2&_&->).
  inversion Hx0; subst. destruct (Hid _ _ _ _ _ _ _ Htr) as [r' Hr'].
  apply (Hst ROk). apply (trans_elem' P tr2 trs2 (AStop m, r')); [done|done|].
  intros l Hl. inversion Hl; subst; [|done]. done.
Qed.
End silent.

(** Without the Stop before it, Stop with a channel nobody has ever used can call
    the OS.  Channel 2 watches the file /a/f for Rename, channel 1 everything below /a,
    first for Write, then also for Remove; the second call reaches the file, the first
    did not.  Stop(3) makes it equal to its directory: the OS is told to report Write
    on the file, too. *)
Definition idle_ops : list (env * nop) := [
  (E0, NWatch (pth "a/f") false 2 (Rename linux)); (E0, NWatch (pth "a") true 1 (Write linux)); (E0, NWatch (pth "a") true 1 (Remove linux))].
Theorem C86_stop_idle_refuted :
  ¬ (∀ tr s E n, nexec_where linux slash os_good tr s → nenv linux slash E → reliable E → (∀ p isrec e r, (NWatch p isrec n e, r) ∉ tr) →
     st_log (nr_Stop E s (KUser n)) = st_log s).
Proof.
  intros H.
  assert (∀ s, s = (nrun init_st idle_ops).2 → st_log (nr_Stop E0 s (KUser 3)) = st_log s ++ [(WRewatch (b "/a/f") (Create linux .| Remove linux .| Rename linux)
    (Create linux .| Remove linux .| Rename linux .| Write linux), true)]) as Hl by (intros s ->; by vm_compute).
  specialize (Hl _ eq_refl).
  rewrite (H (nrun init_st idle_ops).1 _ E0 3%positive) in Hl.
  - apply (f_equal length) in Hl. rewrite app_length in Hl. cbn [length] in Hl. lia.
  - apply nrun_where. unfold idle_ops.
    apply Forall_cons; split; [split; [apply E0_ok|split; [by vm_compute|]]|].
    { cbn [snd fst os_good]. done. }
    apply Forall_cons; split; [split; [apply E0_ok|split; [by vm_compute|]]|].
    { cbn [snd fst os_good]. split_and!; [done|apply (bool_decide_unpack _); by vm_compute|apply reliable_allok]. }
    apply Forall_cons; split; [split; [apply E0_ok|split; [by vm_compute|]]|by apply Forall_nil].
    { cbn [snd fst os_good]. split_and!; [done|apply (bool_decide_unpack _); by vm_compute|apply reliable_allok]. }
  - apply E0_ok.
  - apply reliable_allok.
  - assert ((nrun init_st idle_ops).1 = (λ x, (x.2, ROk)) <$> idle_ops) as -> by (by vm_compute).
    intros p isrec e r (x&Hx&Hin)%elem_of_list_fmap. unfold idle_ops in Hin.
    repeat match type of Hin with
    | _ ∈ _ :: _ => apply elem_of_cons in Hin as [->|Hin]
    | _ ∈ [] => by apply elem_of_nil in Hin
    end; by injection Hx.
Qed.

(** ** Instances *)
(** The first two of the calls of [C65_hyps], and the other way round. *)
Definition two : list acall := take 2 (calls fs1 linux).
Definition two_tr : list (acall * outcome) := (λ o, (o, ORet ROk)) <$> two.
Definition tow_tr : list (acall * outcome) := (λ o, (o, ORet ROk)) <$> reverse two.
Lemma two_aexec l : l = two ∨ l = reverse two → aexec_nr linux ((λ o, (o, ORet ROk)) <$> l) (arun nr_api EL init_st l).2.
Proof.
  intros Hl. assert ((arun nr_api EL init_st l).1 = (λ o, (o, ORet ROk)) <$> l) as <- by (destruct Hl as [->| ->]; by vm_compute).
  apply (arun_from nr_api (nenv linux slash) (acall_ok linux) (λ _, True) EL l [] init_st); [apply mkenv_nenv, dirs1_ok| |done|constructor].
  assert (Forall (acall_ok linux) (calls fs1 linux)) as Hc by (apply calls_ok; [apply fs1_ok|apply fs1_ok|by vm_compute]).
  apply Forall_forall. intros x Hx _. rewrite Forall_forall in Hc. apply Hc.
  assert (x ∈ two) as Ht by (destruct Hl as [->| ->]; [done|by apply elem_of_reverse]).
  rewrite <-(take_drop 2 (calls fs1 linux)). apply elem_of_app. by left.
Qed.
Example C86_ex_order :
  let ei := EI (Write linux) (b "/d/e/x/y") (Some false) fTypeUnknown in
  only_watches two_tr ∧ two_tr ≡ₚ tow_tr ∧
  aexec_nr linux two_tr (arun nr_api EL init_st two).2 ∧ aexec_nr linux tow_tr (arun nr_api EL init_st (reverse two)).2 ∧
  not_refused two_tr ∧ event_on linux ei [b "d"; b "e"; b "x"] (b "y") ∧
  offered EL (arun nr_api EL init_st two).2 ei (KUser 1) = 1%nat.
Proof.
  split_and!.
  - intros o r Hx. unfold two_tr, two in Hx. apply elem_of_list_fmap in Hx as (o'&[= -> ->]&Hin). cbn [calls take] in Hin.
    apply elem_of_cons in Hin as [->|[->|Hin]%elem_of_cons]; [eauto 10..|by apply elem_of_nil in Hin].
  - unfold two_tr, tow_tr. by rewrite reverse_Permutation.
  - by apply two_aexec; left.
  - by apply two_aexec; right.
  - apply Forall_forall. intros [o r] Hx. unfold two_tr in Hx. apply elem_of_list_fmap in Hx as (o'&[= -> ->]&_).
    intros fs cwd p n l _. right. by intros r' [= <-].
  - split_and!; [done|by apply land_zero_disj|apply gpathb_ok; by vm_compute|done|by apply (bool_decide_unpack _)|done].
  - by vm_compute.
Qed.
(** Channel 1 names the directory by its own path, for one of its events; the watcher
    would refuse. *)
Definition again_call : acall := AWatch fs1 None (b "/d/e/...") (Some 1%positive) [Write linux].
Definition ELbad : env := mkenv linux dirs1 (λ _ _, false).
Lemma again_den : denotes fs1 None (b "/d/e/...") true [b "d"; b "e"].
Proof.
  apply clean_denotes; [apply fs1_ok|apply fs1_ok|by intros w [=]|done|apply (bool_decide_unpack _); by vm_compute|apply (bool_decide_unpack _); by vm_compute|by vm_compute].
Qed.
Lemma again_ok : acall_ok linux again_call.
Proof. apply acall_okb_ok; [apply fs1_ok|apply fs1_ok|by intros w [=]|by vm_compute]. Qed.
Lemma again_watched : watched linux two_tr true 1 [b "d"; b "e"] [Write linux].
Proof.
  eexists [], _, fs1, (Some (b "/d")), (b "abs/..."), [Create linux; Write linux], true. split_and!; [done|apply fs1_den1|done|done| |].
  - intros e i ->%elem_of_list_singleton Hi. exists (Write linux). split; [right; left|done].
  - split; [intros r Hr|intros p r Hr]; by apply elem_of_list_singleton in Hr.
Qed.
Lemma again_bit : ∃ e i, e ∈ [Write linux] ∧ has e i.
Proof. exists (Write linux), 22. split; [left|done]. Qed.
Example C86_ex_again :
  let s := (arun nr_api EL init_st two).2 in
  aexec_nr linux two_tr s ∧ nenv linux slash ELbad ∧ acall_ok linux again_call ∧ watched linux two_tr true 1 [b "d"; b "e"] [Write linux] ∧
  (∃ e i, e ∈ [Write linux] ∧ has e i) ∧ astep nr_api ELbad s again_call = (s, ORet ROk) ∧
  (astep nr_api ELbad s (AWatch fs1 None (b "/d/e/...") (Some 1%positive) [Rename linux])).1 ≠ s.
Proof.
  split_and!.
  - by apply two_aexec; left.
  - apply mkenv_nenv, dirs1_ok.
  - apply again_ok.
  - apply again_watched.
  - apply again_bit.
  - destruct (astep nr_api ELbad (arun nr_api EL init_st two).2 again_call) as [s' o] eqn:Es.
    assert (o = ORet ROk) as -> by (change o with (s', o).2; rewrite <-Es; by vm_compute).
    assert (aexec_nr linux two_tr (arun nr_api EL init_st two).2) as Hx by (by apply two_aexec; left).
    destruct (C86_again_silent linux linux_ok two_tr _ ELbad fs1 None (b "/d/e/...") 1 [Write linux] true [b "d"; b "e"] s' ROk Hx) as [-> _];
      [apply mkenv_nenv, dirs1_ok|apply again_ok|apply again_den|apply again_watched|apply again_bit|exact Es|done].
  - intros Heq. apply (f_equal st_log) in Heq. apply (f_equal length) in Heq. by vm_compute in Heq.
Qed.
(** Channel 2 is stopped twice; without the first Stop the second would have called
    the OS. *)
Example C86_ex_stop :
  let s := (arun nr_api EL init_st two).2 in let s1 := api_Stop nr_api EL s 2 in
  idle (two_tr ++ [(AStop 2, ORet ROk)]) 2 ∧ st_log s1 ≠ st_log s ∧ st_log (api_Stop nr_api EL s1 2) = st_log s1.
Proof.
  split_and!; [| |by vm_compute].
  - intros tr1 fs cwd p events r tr2 Heq. exists (ORet ROk).
    destruct tr2 as [|y tr2 _] using rev_ind; [apply app_inj_tail in Heq as [_ Heq]; done|].
    rewrite app_comm_cons, app_assoc in Heq. apply app_inj_tail in Heq as [_ <-]. apply elem_of_app. right. left.
  - intros Heq. apply (f_equal length) in Heq. by vm_compute in Heq.
Qed.

Print Assumptions C86_same_unix.
Print Assumptions C86_same_macos.
Print Assumptions C86_order.
Print Assumptions C86_split.
Print Assumptions C86_forget.
Print Assumptions C86_stop_again.
Print Assumptions C86_again.
Print Assumptions C86_again_silent.
Print Assumptions C86_stop_silent.
Print Assumptions C86_stop_idle_refuted.
