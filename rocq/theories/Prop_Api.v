(** * Property theorems C02 and C65: the calls of the API with the arguments the
    program gives. *)
From Verif Require Import Base Event Watchpoint WatchpointFacts Paths PathsFacts Loop Node NonRec Rec Clean SpecClean CleanFacts
  SpecTree SpecNonRec SpecNonRecOS SpecOS SpecRec RecMask NonRecRun RecRun Prop_Basics Prop_NonRec Prop_Rec Prop_Clean Api SpecApi ApiFacts.
Local Open Scope N_scope.

(** ** C02 *)
(** Histories of either tree. *)
Section vain.
Context (A : api) (envs : env → Prop) (ok : acall → Prop) (live : st → Prop).
(** A history leads to the same state, which comprises the calls made to the OS, if
    its vain calls are left out; the other calls end as before. *)
Theorem C02_no_effect tr s : aexec A envs ok live tr s → aexec A envs ok live (filter (λ x, ¬ vain x.1) tr) s.
Proof.
  induction 1 as [|tr s E o s' r _ IH HE Hok Hs Hl]; [constructor|]. rewrite filter_app, filter_cons, filter_nil. cbn [fst].
  destruct (decide (¬ vain o)) as [Hv|Hv]; [by eapply aexec_step|]. rewrite app_nil_r.
  assert (s' = s) as ->; [|done]. destruct o as [fs cwd p [n|] [|e l]| |]; cbn in Hs; try (by destruct Hv; intros []); by injection Hs as <- _.
Qed.
(** ... and may be made at any moment, with any path, existing or not. *)
Theorem C02_possible tr s E o : aexec A envs ok live tr s → envs E → vain o → live s →
  ∃ r, astep A E s o = (s, r) ∧ aexec A envs ok live (tr ++ [(o, r)]) s.
Proof.
  intros Hx HE Hv Hl. destruct o as [fs cwd p [n|] [|e l]| |]; try done.
  - eexists. split; [done|]. by eapply aexec_step.
  - eexists. split; [done|]. by eapply aexec_step.
  - eexists. split; [done|]. by eapply aexec_step.
Qed.
(** Watch panics on a nil channel, whatever else is given, and on nothing else; with
    an empty event list it returns nil, and fails on no path. *)
Theorem C02_outcome tr s o r : aexec A envs ok live tr s → (o, r) ∈ tr →
  (r = OPanic ↔ ∃ fs cwd p events, o = AWatch fs cwd p None events) ∧
  (∀ fs cwd p n, o = AWatch fs cwd p (Some n) [] → r = ORet ROk).
Proof.
  induction 1 as [|tr s E o' s' r' _ IH HE Hok Hs Hl]; [intros H; by apply elem_of_nil in H|].
  intros [H|H%elem_of_list_singleton]%elem_of_app; [by apply IH|]. injection H as -> ->.
  destruct o' as [fs cwd p [n|] [|e l]|n|ev p]; cbn in Hs.
  - injection Hs as _ <-. split; [|done]. split; [done|]. by intros (?&?&?&?&[=]).
  - split; [|done]. split; [|by intros (?&?&?&?&[=])]. destruct (cleanpath fs cwd p) as [[q isrec]|]; [|by injection Hs as _ <-].
    destruct (a_watch A E s q isrec (KUser n) _) as [s1 r1]. by injection Hs as _ <-.
  - injection Hs as _ <-. split; [|done]. split; [|done]. intros _. eauto.
  - injection Hs as _ <-. split; [|done]. split; [|done]. intros _. eauto.
  - injection Hs as _ <-. split; [|done]. split; [done|]. by intros (?&?&?&?&[=]).
  - injection Hs as _ <-. split; [|done]. split; [done|]. by intros (?&?&?&?&[=]).
Qed.
(** A Watch whose path cannot be cleaned changes nothing either. *)
Theorem C02_bad_path E s fs cwd p c events s' e :
  astep A E s (AWatch fs cwd p c events) = (s', OBadPath e) → s' = s.
Proof.
  cbn. destruct c as [n|]; [|by intros [= <-]]. destruct events as [|e0 l]; [by intros [= <-]|].
  cbn. destruct (cleanpath fs cwd p) as [[q isrec]|]; [|by intros [= <-]]. by destruct (a_watch A E s q isrec (KUser n) _).
Qed.
End vain.

(** ** C65: from the arguments of Watch to the channels *)
Lemma aexec_ok A envs (ok : acall → Prop) live tr s o r : aexec A envs ok live tr s → (o, r) ∈ tr → ¬ vain o → ok o.
Proof.
  induction 1 as [|tr s E o' s' r' _ IH HE Hok Hs Hl]; [intros H; by apply elem_of_nil in H|].
  intros [H|H%elem_of_list_singleton]%elem_of_app; [by apply IH|]. injection H as -> ->. done.
Qed.
(** Only user events are subscribed. *)
Definition user_calls (P : platform) (tr : list (acall * outcome)) : Prop :=
  ∀ o r, (o, r) ∈ tr → ¬ vain o → acall_ok P o.
Lemma subscribed_user P tr n q i : user_calls P tr → subscribed P tr n q i → ¬ has (internal P) i.
Proof.
  intros Hu (tr1&tr2&fs&cwd&p&isrec&ev&->&_&(e&He&Hi)&_) Hi'.
  destruct (Hu (AWatch fs cwd p (Some n) ev) (ORet ROk)) as (_&_&_&Hev).
  - apply elem_of_app. right. left.
  - intros Hv. destruct ev; [by apply elem_of_nil in He|done].
  - rewrite Forall_forall in Hev. by apply (proj2 (Hev _ He) i).
Qed.
Section subs.
Context (P : platform) (HP : platform_ok P).
Lemma all_sub tr trs n q ev : Forall2 (trans P) tr trs → q ≠ [] → [] ∉ q → disj_ev ev (internal P) →
  incl_ev ev (asked P (concat trs) q n) ↔ subscribed_all P tr n q ev.
Proof.
  intros Ht Hq Hq' Hev. split.
  - intros H i Hi. pose proof (H i Hi) as Hs. apply (asked_sub P tr trs) in Hs; try done. destruct Hs as [Hs|[Hs _]]; [done|].
    exfalso. apply (Hev i Hi). unfold internal. apply has_lor. by left.
  - intros H i Hi. apply (asked_sub P tr trs); try done. left. by apply H.
Qed.
Lemma rec_sub tr trs n q ev : user_calls P tr → Forall2 (trans P) tr trs → q ≠ [] → [] ∉ q → disj_ev ev (internal P) →
  incl_ev (ev .| recursive P) (asked P (concat trs) q n) ↔ subscribed_all P tr n q ev ∧ subscribed_rec P tr n q.
Proof.
  intros Hu Ht Hq Hq' Hev. rewrite <-(all_sub tr trs) by done. split.
  - intros H. split; [intros i Hi; apply H, has_lor; by left|].
    destruct (pok_single P HP (recursive P)) as [j Hj]; [unfold consts; set_solver|].
    assert (has (recursive P) j) as Hrj by (rewrite Hj; unfold has; apply N.pow2_bits_true).
    destruct (proj1 (asked_sub P tr trs n q j Ht Hq Hq')) as [Hs|[_ Hs]]; [apply H, has_lor; by right| |done].
    exfalso. apply (subscribed_user P tr n q j Hu Hs). unfold internal. apply has_lor. by left.
  - intros [H1 H2] i [Hi|Hi]%has_lor; [by apply H1|]. apply (asked_sub P tr trs); try done. by right.
Qed.
End subs.

Lemma deliveries_pos P g n ev d c :
  (0 < deliveries P g n ev d c)%nat ↔ incl_ev ev (g (d ++ [c]) n) ∨ incl_ev ev (g d n) ∨
    ∃ a, a `prefix_of` d ∧ a ≠ d ∧ incl_ev (ev .| recursive P) (g a n).
Proof.
  assert (∀ ev q, (0 < gets g n ev q)%nat ↔ incl_ev ev (g q n)) as Hg.
  { intros ev' q. unfold gets. destruct (decide (ev' .& g q n = ev')) as [Hz|Hz]; split; try lia.
    - intros _. rewrite <-Hz. clear. bits.
    - intros H. destruct Hz. clear - H. bits. }
  rewrite <-!Hg. unfold deliveries.
  assert ((0 < foldr Nat.add 0 ((λ k, gets g n (ev .| recursive P) (take k d)) <$> seq 0 (length d)))%nat ↔
    ∃ a, a `prefix_of` d ∧ a ≠ d ∧ incl_ev (ev .| recursive P) (g a n)) as <-; [|lia].
  assert (∀ (f : nat → nat) l, (0 < foldr Nat.add 0 (f <$> l))%nat ↔ ∃ k, k ∈ l ∧ (0 < f k)%nat) as Hs.
  { intros f l. induction l as [|k l IH]; [split; [simpl; lia|set_solver]|]. rewrite fmap_cons. simpl. split.
    - intros H. destruct (f k) eqn:Ek; [apply IH in H as (k'&?&?); exists k'; set_solver|exists k; set_solver by lia].
    - intros (k'&[->|Hk]%elem_of_cons&Hf); [lia|]. assert (0 < foldr Nat.add 0 (f <$> l))%nat by (apply IH; eauto). lia. }
  rewrite Hs. split.
  - intros (k&[_ Hk]%elem_of_seq&Hf%Hg). exists (take k d). split_and!; [apply prefix_take| |done].
    intros Heq. apply (f_equal length) in Heq. rewrite take_length in Heq. lia.
  - intros (a&[r ->]&Hne&Hi). exists (length a). split.
    + apply elem_of_seq. rewrite app_length. destruct r; [by rewrite app_nil_r in Hne|simpl; lia].
    + rewrite take_app. by apply Hg.
Qed.
(** The path of the directory and of its entry are paths as [cleanpath] gives them. *)
Definition entry_of (ei : event_info) (d : path) (c : str) : Prop :=
  gpath slash d ∧ c ≠ [] ∧ comp_ok slash c ∧ ei_path ei = render slash (d ++ [c]).
(** The channel is subscribed to all of [ev] on the entry [c] of [d], or on [d], or on
    a directory further above for which it has also asked for the subtree. *)
Definition reaches (P : platform) (tr : list (acall * outcome)) (n : positive) (ev : N) (d : path) (c : str) : Prop :=
  subscribed_all P tr n (d ++ [c]) ev ∨ subscribed_all P tr n d ev ∨
  ∃ a, a `prefix_of` d ∧ a ≠ d ∧ a ≠ [] ∧ subscribed_all P tr n a ev ∧ subscribed_rec P tr n a.
Section delivery.
Context (P : platform) (HP : platform_ok P).

Lemma reaches_deliveries tr trs n ev d c :
  user_calls P tr → Forall2 (trans P) tr trs → ev ≠ 0 → disj_ev ev (internal P) → gpath slash d → c ≠ [] →
  (0 < deliveries P (asked P (concat trs)) n ev d c)%nat ↔ reaches P tr n ev d c.
Proof.
  intros Hu Ht Hev Hint (Hd0&Hd1&Hd2) Hc. rewrite deliveries_pos. unfold reaches.
  rewrite (all_sub P tr trs n (d ++ [c])), (all_sub P tr trs n d); try done; [|by destruct d|].
  2: { intros [H|H%elem_of_list_singleton]%elem_of_app; done. }
  assert (∀ a, a `prefix_of` d → [] ∉ a) as Hpre by (intros a [z ->] H; apply Hd2, elem_of_app; by left).
  split; (intros [H|[H|(a&Ha&H)]]; [by left|right; by left|right; right; exists a; split; [done|]]).
  - destruct H as [Hne H]. destruct (decide (a = [])) as [->|Ha0].
    + exfalso. rewrite (asked_root P tr trs n Ht) in H. apply Hev, has_ext. intros i. split; [intros Hi|intros Hi; by apply has_0 in Hi].
      apply H, has_lor. by left.
    + apply (rec_sub P HP tr trs) in H as [H1 H2]; try done. by apply Hpre.
  - destruct H as (Hne&Ha0&H1&H2). split; [done|]. apply (rec_sub P HP tr trs); try done. by apply Hpre.
Qed.
Lemma entry_reported ei d c : ei_event ei ≠ 0 → disj_ev (ei_event ei) (internal P) → entry_of ei d c → reported P slash ei d c.
Proof.
  intros Hev Hint ((Hd0&Hd1&Hd2)&Hc&Hcok&Hp). split_and!; try done.
  - intros i Hi Hi'. apply (Hint i Hi). unfold internal. apply has_lor. by right.
  - split_and!; try done. intros H. apply Hd2. destruct (removelast_prefix d) as [z Hz]. rewrite Hz. apply elem_of_app. by left.
Qed.

Section nr.
Context (HW : windows P = false).
(** Linux, BSD, Solaris: when no plain Watch was refused by the OS, an event on an
    entry of a directory is offered to exactly the channels whose subscriptions reach
    it. *)
Theorem C65_delivery tr s E ei d c n :
  aexec_nr P tr s → not_refused tr → nenv P slash E →
  ei_event ei ≠ 0 → disj_ev (ei_event ei) (internal P) → entry_of ei d c →
  (0 < offered E s ei (KUser n))%nat ↔ reaches P tr n (ei_event ei) d c.
Proof.
  intros Hx Hnr HE Hev Hint Hen. destruct (aexec_nr_nexec P tr s Hx) as (trs&Ht&Hn).
  assert (user_calls P tr) as Hu by (intros o r Ho Hv; by eapply aexec_ok).
  rewrite (C17_exact_delivery P HP HW slash (concat trs) s E ei d c n); try done.
  - by apply reaches_deliveries; destruct Hen as (?&?&?&?).
  - by eapply trans_no_failure.
  - by apply entry_reported.
Qed.
(** How often: as often as the subscriptions of the channel, taken together for each
    path, contain the event. *)
Theorem C65_exact tr s :
  aexec_nr P tr s → not_refused tr → ∃ g,
    (∀ n q i, q ≠ [] → [] ∉ q → has (g q n) i ↔ subscribed P tr n q i ∨ has (recursive P) i ∧ subscribed_rec P tr n q) ∧
    (∀ n, g [] n = 0) ∧
    ∀ E ei d c n, nenv P slash E → ei_event ei ≠ 0 → disj_ev (ei_event ei) (internal P) → entry_of ei d c →
      offered E s ei (KUser n) = deliveries P g n (ei_event ei) d c.
Proof.
  intros Hx Hnr. destruct (aexec_nr_nexec P tr s Hx) as (trs&Ht&Hn). exists (asked P (concat trs)).
  split_and!; [intros; by apply asked_sub|intros; by eapply asked_root|]. intros E ei d c n HE Hev Hint Hen.
  apply (C17_exact_delivery P HP HW slash); try done; [by eapply trans_no_failure|by apply entry_reported].
Qed.
End nr.
End delivery.
(** macOS: the same, when no Watch was refused and the tree did not panic. *)
Theorem C65_macos tr s E ei d c n :
  aexec_rec fsevents tr s → never_refused tr → renv fsevents slash false (λ _, False) E →
  ei_event ei ≠ 0 → disj_ev (ei_event ei) (internal fsevents) → entry_of ei d c →
  (0 < rec_offered E s ei (KUser n))%nat ↔ reaches fsevents tr n (ei_event ei) d c.
Proof.
  intros Hx Hnr HE Hev Hint Hen. destruct (aexec_rec_rexec fsevents tr s Hx) as (trs&Ht&Hn).
  assert (user_calls fsevents tr) as Hu by (intros o r Ho Hv; by eapply (aexec_ok _ _ _ _ _ _ _ _ Hx Ho Hv)).
  destruct Hen as (Hd&Hc&Hcok&Hp).
  rewrite (C30_exact_delivery fsevents fsevents_ok) with (sepc := slash) (w := false) (isvol := λ _, False) (tr := concat trs) (d := d) (c := c); try done.
  - by apply (reaches_deliveries _ fsevents_ok).
  - by eapply trans_all_ok.
  - destruct Hd as (Hd0&Hd1&Hd2). by split_and!.
Qed.

(** ** Instances *)
Fixpoint arun (A : api) (E : env) (s : st) (l : list acall) : list (acall * outcome) * st :=
  match l with
  | [] => ([], s)
  | o :: l => let '(s', r) := astep A E s o in let '(tr, s'') := arun A E s' l in ((o, r) :: tr, s'')
  end.
Lemma arun_from A (envs : env → Prop) (ok : acall → Prop) (live : st → Prop) E l : ∀ tr s,
  envs E → Forall (λ o, ¬ vain o → ok o) l → (∀ k, live (arun A E s (take k l)).2) → aexec A envs ok live tr s →
  aexec A envs ok live (tr ++ (arun A E s l).1) (arun A E s l).2.
Proof.
  induction l as [|o l IH]; intros tr s HE Hok Hl Hx; cbn [arun]; [by rewrite app_nil_r|].
  apply Forall_cons_1 in Hok as [Ho Hok]. destruct (astep A E s o) as [s' r] eqn:Hs.
  assert (live s') as Hl1.
  { specialize (Hl 1%nat). cbn [take arun] in Hl. by rewrite Hs in Hl. }
  specialize (IH (tr ++ [(o, r)]) s' HE Hok). rewrite <-app_assoc in IH.
  assert (∀ k, live (arun A E s' (take k l)).2) as Hl2.
  { intros k. specialize (Hl (S k)). cbn [take arun] in Hl. rewrite Hs in Hl. by destruct (arun A E s' (take k l)). }
  specialize (IH Hl2). destruct (arun A E s' l) as [tr' s'']. apply IH. by eapply aexec_step.
Qed.
(** In the filesystem [fs1], where /d/abs -> /l -> d/e: channel 1 asks in directory /d
    for everything below "abs", channel 2 for "../f", then for an empty event list on a
    missing file; somebody passes a nil channel; channel 3 names a missing file. *)
Definition calls (fs : fsys) (P : platform) : list acall := [
  AWatch fs (Some (b "/d")) (b "abs/...") (Some 1%positive) [Create P; Write P];
  AWatch fs (Some (b "/d")) (b "../f") (Some 2%positive) [Write P; Remove P];
  AWatch fs None (b "missing") (Some 2%positive) [];
  AWatch fs None (b "/d") None [Write P];
  AWatch fs None (b "/d/missing") (Some 3%positive) [Write P]].
Definition outcomes1 : list outcome := [ORet ROk; ORet ROk; ORet ROk; OPanic; OBadPath EStat].
Definition user_evb (P : platform) (x : N) : bool := (x <? 2 ^ 32) && (x .& internal P =? 0).
Lemma user_evb_ok P l : forallb (user_evb P) l = true → Forall (λ x, u32 x ∧ user_ev P x) l.
Proof.
  rewrite forallb_forall. intros HP. apply Forall_forall. intros x Hx. specialize (HP x (proj1 (elem_of_list_In _ _) Hx)).
  apply andb_true_iff in HP as [H1%N.ltb_lt H2%N.eqb_eq]. split; [done|]. by apply land_zero_disj.
Qed.
Lemma acall_okb_ok P fs cwd p c l : fs_ok fs → root_links_ok fs → (∀ w, cwd = Some w → isabs w = true) →
  forallb (user_evb P) l = true → acall_ok P (AWatch fs cwd p c l).
Proof. intros H1 H2 H3 H4. split_and!; [exact H1|exact H2|exact H3|by apply user_evb_ok]. Qed.
Lemma calls_ok P fs : fs_ok fs → root_links_ok fs → forallb (user_evb P) [Create P; Remove P; Write P] = true →
  Forall (acall_ok P) (calls fs P).
Proof.
  intros Hf Hl HP. cbn [forallb] in HP. rewrite !andb_true_iff in HP. destruct HP as (H1&H2&H3&_).
  repeat (apply Forall_cons; split; [apply acall_okb_ok; [exact Hf|exact Hl|by intros w [= <-]|cbn [forallb]; by rewrite ?H1, ?H2, ?H3]|]).
  by apply Forall_nil.
Qed.
Definition atr (fs : fsys) (P : platform) : list (acall * outcome) := zip (calls fs P) outcomes1.
Lemma atr_not_refused fs P : not_refused (atr fs P) ∧ never_refused (atr fs P).
Proof.
  split; repeat (apply Forall_cons; split; [|]); try apply Forall_nil; try done.
  all: try (intros fs' cwd p n l _; right). all: by intros r' [= <-].
Qed.
Definition dirs1 : gset path := {[ [b "d"]; [b "d"; b "e"]; [b "d"; b "e"; b "x"] ]}.
Definition EL : env := mkenv linux dirs1 allok.
Lemma dirs1_ok : dirs_ok slash dirs1.
Proof. apply dirs_okb_ok. by vm_compute. Qed.
Lemma fs1_arun : (arun nr_api EL init_st (calls fs1 linux)).1 = atr fs1 linux.
Proof. by vm_compute. Qed.
Example C65_hyps :
  let s := (arun nr_api EL init_st (calls fs1 linux)).2 in
  let ei := EI (Write linux) (b "/d/e/x/y") (Some false) fTypeUnknown in
  aexec_nr linux (atr fs1 linux) s ∧ not_refused (atr fs1 linux) ∧ nenv linux slash EL ∧
  ei_event ei ≠ 0 ∧ disj_ev (ei_event ei) (internal linux) ∧ entry_of ei [b "d"; b "e"; b "x"] (b "y") ∧
  offered EL s ei (KUser 1) = 1%nat ∧ offered EL s ei (KUser 2) = 0%nat.
Proof.
  split_and!; [| | |done|by apply land_zero_disj| |by vm_compute..].
  - rewrite <-fs1_arun. 
    apply (arun_from nr_api (nenv linux slash) (acall_ok linux) (λ _, True) EL (calls fs1 linux) [] init_st); [apply mkenv_nenv, dirs1_ok| |done|constructor].
    eapply Forall_impl; [apply calls_ok; [apply fs1_ok|apply fs1_ok|by vm_compute]|]. by intros x Hx _.
  - apply atr_not_refused.
  - apply mkenv_nenv, dirs1_ok.
  - split_and!; [apply gpathb_ok; by vm_compute|done|by apply (bool_decide_unpack _)|done].
Qed.
(** Two of these calls are in vain; without them the same state is reached. *)
Example C02_hyps :
  let s := (arun nr_api EL init_st (calls fs1 linux)).2 in
  ∃ tr, tr = filter (λ x, ¬ vain x.1) (atr fs1 linux) ∧ length tr = 3%nat ∧ aexec_nr linux tr s.
Proof.
  intros s. exists (filter (λ x, ¬ vain x.1) (atr fs1 linux)). split_and!; [done|done|].
  destruct C65_hyps as [Hx _]. by apply C02_no_effect in Hx.
Qed.
(** The subscriptions that explain it. *)
Example C65_subscribed : reaches linux (atr fs1 linux) 1 (Write linux) [b "d"; b "e"; b "x"] (b "y").
Proof.
  destruct C65_hyps as (H1&H2&H3&H4&H5&H6&H7&_).
  apply (C65_delivery linux linux_ok eq_refl _ _ _ _ _ _ _ H1 H2 H3 H4 H5 H6). rewrite H7. lia.
Qed.
Lemma not_root fs cwd p q isrec : fs_ok fs → root_links_ok fs → (∀ w, cwd = Some w → isabs w = true) →
  cleanpath fs cwd p = inl q → q.1 ≠ b "/" → ¬ denotes fs cwd p isrec [].
Proof.
  intros Hf Hl Hw Hc Hq Hd. destruct q as [q isrec']. destruct (cleanpath_denotes _ _ _ _ _ Hf Hl Hw Hc) as (ph&->&Hd').
  destruct (denotes_det _ _ _ _ _ _ _ Hd Hd') as [_ <-]. by apply Hq.
Qed.
Lemma calls_rec_ok P fs : fs_ok fs → root_links_ok fs → forallb (user_evb P) [Create P; Remove P; Write P] = true →
  cleanpath fs (Some (b "/d")) (b "abs/...") = inl (b "/d/e", true) → cleanpath fs (Some (b "/d")) (b "../f") = inl (b "/f", false) →
  cleanpath fs None (b "/d/missing") = inr EStat →
  Forall (λ o, ¬ vain o → acall_rec_ok P o) (calls fs P).
Proof.
  intros Hf Hl HP H1 H2 H3. pose proof (calls_ok P fs Hf Hl HP) as Hok. revert Hok. unfold calls.
  intros (Ho1&(Ho2&(_&(_&(Ho5&_)%Forall_cons_1)%Forall_cons_1)%Forall_cons_1)%Forall_cons_1)%Forall_cons_1.
  apply Forall_cons; split; [|apply Forall_cons; split; [|apply Forall_cons; split; [|apply Forall_cons; split; [|apply Forall_cons; split; [|by apply Forall_nil]]]]].
  - intros _. split; [exact Ho1|]. intros isrec. by eapply not_root; [exact Hf|exact Hl|intros w [= <-]|exact H1|].
  - intros _. split; [exact Ho2|]. intros isrec. by eapply not_root; [exact Hf|exact Hl|intros w [= <-]|exact H2|].
  - intros Hv. by destruct Hv.
  - intros Hv. by destruct Hv.
  - intros _. split; [exact Ho5|]. intros isrec (p'&a&Hp&Hn&Ha&Hr&_).
    destruct (C15_error_partial fs None (b "/d/missing") EStat Hf Hl) as (a'&Ha'&Hno); [by intros w [=]|exact H3|].
    destruct isrec; [apply (f_equal reverse) in Hp; by rewrite reverse_app in Hp|].
    rewrite app_nil_r in Hp. subst p'. change ((cutdots (b "/d/missing")).1) with (b "/d/missing") in Ha'. rewrite Ha' in Ha. injection Ha as <-. by apply (Hno []).
Qed.
Lemma fs1_arun_rec : (arun rec_api L init_st (calls fs1 fsevents)).1 = atr fs1 fsevents.
Proof. by vm_compute. Qed.
Example C65_macos_hyps :
  let s := (arun rec_api L init_st (calls fs1 fsevents)).2 in
  let ei := EI (Write fsevents) (b "/d/e/x/y") (Some false) fTypeUnknown in
  aexec_rec fsevents (atr fs1 fsevents) s ∧ never_refused (atr fs1 fsevents) ∧ renv fsevents slash false (λ _, False) L ∧
  ei_event ei ≠ 0 ∧ disj_ev (ei_event ei) (internal fsevents) ∧ entry_of ei [b "d"; b "e"; b "x"] (b "y") ∧
  rec_offered L s ei (KUser 1) = 1%nat ∧ rec_offered L s ei (KUser 2) = 0%nat.
Proof.
  split_and!; [| | |done|by apply land_zero_disj| |by vm_compute..].
  - rewrite <-fs1_arun_rec.
    apply (arun_from rec_api (renv fsevents slash false (λ _, False)) (acall_rec_ok fsevents) (λ s, st_panic s = false) L (calls fs1 fsevents) [] init_st); [apply menv_ok| | |constructor].
    + apply calls_rec_ok; [apply fs1_ok|apply fs1_ok|by vm_compute..].
    + intros k. do 6 (destruct k as [|k]; [by vm_compute|]). by vm_compute.
  - apply atr_not_refused.
  - apply menv_ok.
  - split_and!; [apply gpathb_ok; by vm_compute|done|by apply (bool_decide_unpack _)|done].
Qed.

Print Assumptions C02_no_effect.
Print Assumptions C02_possible.
Print Assumptions C02_outcome.
Print Assumptions C02_bad_path.
Print Assumptions C65_delivery.
Print Assumptions C65_exact.
Print Assumptions C65_macos.
Print Assumptions C02_hyps.
Print Assumptions C65_hyps.
Print Assumptions C65_subscribed.
Print Assumptions C65_macos_hyps.
