(** * ApiFacts: histories of API calls are histories of the trees *)
From Verif Require Import Base Event Watchpoint WatchpointFacts Paths PathsFacts Loop Node NonRec Rec Clean SpecClean CleanFacts
  SpecTree SpecNonRec SpecRec Prop_Basics Prop_Clean Api SpecApi.
Local Open Scope N_scope.

(** ** What a path denotes *)
Lemma resolves_det fs d cs q q' : resolves fs d cs q → resolves fs d cs q' → q = q'.
Proof. intros [n H1] [m H2]. by eapply kres_det. Qed.
Lemma denotes_det fs cwd p isrec isrec' q q' :
  denotes fs cwd p isrec q → denotes fs cwd p isrec' q' → isrec = isrec' ∧ q = q'.
Proof.
  intros (x&a&Hp&Hn&Ha&Hr&_) (x'&a'&Hp'&Hn'&Ha'&Hr'&_).
  assert (isrec = isrec') as <-.
  { destruct isrec, isrec'; try done; [by destruct (Hn' eq_refl x)|by destruct (Hn eq_refl x')]. }
  split; [done|]. assert (x = x') as <- by (rewrite Hp' in Hp; by apply app_inv_tail in Hp).
  rewrite Ha in Ha'. injection Ha' as <-. by eapply resolves_det.
Qed.
Lemma cleanpath_denotes fs cwd p q isrec :
  fs_ok fs → root_links_ok fs → (∀ w, cwd = Some w → isabs w = true) → cleanpath fs cwd p = inl (q, isrec) →
  ∃ ph, q = topath ph ∧ denotes fs cwd p isrec ph.
Proof.
  intros Hok Hl Hw Hc. destruct (C15_success_partial _ _ _ _ _ Hok Hl Hw Hc) as (p'&a&ph&Hp&Ha&Hr&->&Hre).
  exists ph. split; [done|]. exists p', a. split_and!; try done. intros -> x Hx.
  pose proof (proj2 (C16_cleanpath _ _ _ _ _ Hc) (ex_intro _ x Hx)) as H. done.
Qed.
Definition nodeof (q : path) : path := match q with [] => [[]] | _ => q end.
Lemma real_upath fs q : real fs q → upath slash (nodeof q).
Proof.
  intros (_&_&Hall). destruct q as [|c q].
  - split_and!; [done|constructor; [by apply not_elem_of_nil|constructor]|by apply not_elem_of_nil].
  - rewrite Forall_forall in Hall. split_and!; [done| |].
    + apply Forall_forall. intros x Hx. by apply Hall.
    + intros Hx. destruct (removelast_prefix (c :: q)) as [z Hz]. destruct (Hall []) as [? _]; [|done]. cbn [nodeof] in Hx. rewrite Hz. apply elem_of_app. by left.
Qed.
Lemma real_proper fs q : real fs q → [] ∉ q.
Proof. intros (_&_&Hall) Hx. rewrite Forall_forall in Hall. by destruct (Hall [] Hx). Qed.

Section facts.
Context (P : platform).
Notation trace := (list (acall * outcome)).
(** ** One call *)
Inductive trans : acall * outcome → list (nop * result) → Prop :=
  | tr_vain o r : vain o → trans (o, r) []
  | tr_bad fs cwd p c events e : trans (AWatch fs cwd p c events, OBadPath e) []
  | tr_watch fs cwd p n events r isrec ph :
      events ≠ [] → denotes fs cwd p isrec ph →
      trans (AWatch fs cwd p (Some n) events, ORet r) [(NWatch (nodeof ph) isrec n (joinevents P events), r)]
  | tr_stop n : trans (AStop n, ORet ROk) [(NStop n, ROk)]
  | tr_event ev p : trans (AEvent ev p, ORet ROk) [(NEvent ev p, ROk)].

Lemma joinevents_ok events : Forall (λ e, u32 e ∧ user_ev P e) events → events ≠ [] → u32 (joinevents P events) ∧ user_ev P (joinevents P events).
Proof.
  intros Hall Hne. rewrite Forall_forall in Hall. split.
  - apply bits_u32. intros i Hi. apply C01_union in Hi as (e&He&Hi); [|done]. by apply (u32_bits e (proj1 (Hall _ He))).
  - intros i Hi Hi'. apply C01_union in Hi as (e&He&Hi); [|done]. by apply (proj2 (Hall _ He) i).
Qed.
Lemma nr_trans E s o s' r : nenv P slash E → (¬ vain o → acall_ok P o) → astep nr_api E s o = (s', r) →
  (trans (o, r) [] ∧ s' = s) ∨ ∃ o' r', trans (o, r) [(o', r')] ∧ nop_ok P slash o' ∧ nstep slash E s o' = (s', r').
Proof.
  intros HE Hok Hs. destruct o as [fs cwd p c events|n|ev p]; cbn [astep] in Hs.
  - unfold api_Watch in Hs. destruct c as [n|]; [|injection Hs as <- <-; left; by split; [constructor|]].
    destruct events as [|e0 events]; [injection Hs as <- <-; left; by split; [constructor|]|].
    destruct (Hok (λ x, x)) as (Hf&Hl&Hw&Hev).
    destruct (cleanpath fs cwd p) as [[q isrec]|e] eqn:Ec; [|injection Hs as <- <-; left; by split; [constructor|]].
    destruct (cleanpath_denotes _ _ _ _ _ Hf Hl Hw Ec) as (ph&->&Hd).
    destruct (a_watch nr_api E s (topath ph) isrec (KUser n) (joinevents (e_plat E) (e0 :: events))) as [s1 r1] eqn:Ew.
    injection Hs as <- <-. right. eexists _, _. split; [by apply tr_watch|]. destruct (joinevents_ok _ Hev) as [H1 H2]; [done|].
    split; [split_and!; [|done|done]; apply (real_upath fs); by destruct Hd as (?&?&?&?&?&?&?)|].
    cbn [a_watch nr_api] in Ew. rewrite (ne_plat _ _ _ HE) in Ew. exact Ew.
  - injection Hs as <- <-. right. eexists _, _. by split; [apply tr_stop|].
  - injection Hs as <- <-. right. eexists _, _. split; [apply tr_event|]. split; [|done]. apply Hok. by intros [].
Qed.
Lemma rec_trans E s o s' r : renv P slash false (λ _, False) E → (¬ vain o → acall_rec_ok P o) → astep rec_api E s o = (s', r) →
  (trans (o, r) [] ∧ s' = s) ∨
  ∃ o' r', trans (o, r) [(o', r')] ∧ rop_ok P slash false (λ _, False) o' ∧ rstep slash false E s o' = (s', r').
Proof.
  intros HE Hok Hs. destruct o as [fs cwd p c events|n|ev p]; cbn [astep] in Hs.
  - unfold api_Watch in Hs. destruct c as [n|]; [|injection Hs as <- <-; left; by split; [constructor|]].
    destruct events as [|e0 events]; [injection Hs as <- <-; left; by split; [constructor|]|].
    destruct (Hok (λ x, x)) as ((Hf&Hl&Hw&Hev)&Hnr).
    destruct (cleanpath fs cwd p) as [[q isrec]|e] eqn:Ec; [|injection Hs as <- <-; left; by split; [constructor|]].
    destruct (cleanpath_denotes _ _ _ _ _ Hf Hl Hw Ec) as (ph&->&Hd).
    destruct (a_watch rec_api E s (topath ph) isrec (KUser n) (joinevents (e_plat E) (e0 :: events))) as [s1 r1] eqn:Ew.
    injection Hs as <- <-. right. eexists _, _. split; [by apply tr_watch|]. destruct (joinevents_ok _ Hev) as [H1 H2]; [done|].
    assert (ph ≠ []) as Hph by (intros ->; by apply (Hnr isrec)).
    assert (real fs ph) as Hre by (by destruct Hd as (?&?&?&?&?&?&?)).
    split.
    + split_and!; [|done|done]. pose proof (real_upath fs ph Hre) as (Hu1&Hu2&_). destruct ph as [|c ph]; [done|].
      split; [by apply (real_proper fs)|]. by split.
    + cbn [a_watch rec_api] in Ew. rewrite (re_plat _ _ _ _ _ HE) in Ew. destruct ph as [|c ph]; [done|]. exact Ew.
  - injection Hs as <- <-. right. eexists _, _. by split; [apply tr_stop|].
  - destruct Hok as [_ []]. by intros [].
Qed.
(** ** Histories *)
Lemma aexec_nr_nexec tr s : aexec_nr P tr s → ∃ trs, Forall2 trans tr trs ∧ nexec P slash (concat trs) s.
Proof.
  induction 1 as [|tr s E o s' r _ (trs&Ht&IH) HE Hok Hs _]; [exists []; by split; [|constructor]|].
  destruct (nr_trans _ _ _ _ _ HE Hok Hs) as [[Htr ->]|(o'&r'&Htr&Ho&Hs')].
  - exists (trs ++ [[]]). split; [by apply Forall2_app; [|constructor]|]. by rewrite concat_app, app_nil_r.
  - exists (trs ++ [[(o', r')]]). split; [by apply Forall2_app; [|constructor]|]. rewrite concat_app. by eapply nexec_step.
Qed.
Lemma aexec_rec_rexec tr s : aexec_rec P tr s → ∃ trs, Forall2 trans tr trs ∧ rexec P slash false (λ _, False) (concat trs) s.
Proof.
  induction 1 as [|tr s E o s' r _ (trs&Ht&IH) HE Hok Hs Hp]; [exists []; by split; [|constructor]|].
  destruct (rec_trans _ _ _ _ _ HE Hok Hs) as [[Htr ->]|(o'&r'&Htr&Ho&Hs')].
  - exists (trs ++ [[]]). split; [by apply Forall2_app; [|constructor]|]. by rewrite concat_app, app_nil_r.
  - exists (trs ++ [[(o', r')]]). split; [by apply Forall2_app; [|constructor]|]. rewrite concat_app. by eapply rexec_step.
Qed.
Lemma trans_no_failure tr trs : Forall2 trans tr trs → not_refused tr → no_failure (concat trs).
Proof.
  intros Ht Hn. induction Ht as [|[o r] l tr trs Htr _ IH]; [constructor|]. cbn [concat].
  apply Forall_cons_1 in Hn as [Hx Hn]. apply Forall_app. split; [|by apply IH].
  inversion Htr as [| |fs cwd p n events r' isrec ph Hne Hd| |]; subst; constructor; try constructor.
  destruct isrec; [done|]. destruct (Hx _ _ _ _ _ eq_refl) as [[x ->]|H]; [|by apply H].
  destruct Hd as (p'&a&_&Hd&_). by destruct (Hd eq_refl x).
Qed.
Lemma trans_all_ok tr trs : Forall2 trans tr trs → never_refused tr → all_ok (concat trs).
Proof.
  intros Ht Hn. induction Ht as [|[o r] l tr trs Htr _ IH]; [constructor|]. cbn [concat].
  apply Forall_cons_1 in Hn as [Hx Hn]. apply Forall_app. split; [|by apply IH].
  inversion Htr as [| |fs cwd p n events r' isrec ph Hne Hd| |]; subst; constructor; try constructor; try done. by apply Hx.
Qed.

(** ** Subscriptions *)
(** The last call. *)
Definition watches_now (x : acall * outcome) (n : positive) (q : path) (i : N) : Prop :=
  ∃ fs cwd p isrec events, x = (AWatch fs cwd p (Some n) events, ORet ROk) ∧ denotes fs cwd p isrec q ∧ events ≠ [] ∧
    ((∃ e, e ∈ events ∧ has e i) ∨ isrec = true ∧ has (recursive P) i).
Definition sub (tr : trace) (n : positive) (q : path) (i : N) : Prop :=
  subscribed P tr n q i ∨ has (recursive P) i ∧ subscribed_rec P tr n q.
Lemma kept_app tr tr' n q : kept P (tr ++ tr') n q ↔ kept P tr n q ∧ kept P tr' n q.
Proof.
  split.
  - intros [H1 H2]. split; split.
    + intros r Hr. apply (H1 r), elem_of_app. by left.
    + intros p r Hr. apply (H2 p r), elem_of_app. by left.
    + intros r Hr. apply (H1 r), elem_of_app. by right.
    + intros p r Hr. apply (H2 p r), elem_of_app. by right.
  - intros [[H1 H2] [H3 H4]]. split.
    + intros r [Hr|Hr]%elem_of_app; [by eapply H1|by eapply H3].
    + intros p r [Hr|Hr]%elem_of_app; [by eapply H2|by eapply H4].
Qed.
Lemma kept_nil n q : kept P [] n q.
Proof. split; [intros r; apply not_elem_of_nil|]. intros p r Hr. by apply elem_of_nil in Hr. Qed.
Lemma split_snoc {A} (l l1 l2 : list A) (x y : A) :
  l ++ [x] = l1 ++ y :: l2 → (l2 = [] ∧ y = x ∧ l1 = l) ∨ ∃ l2', l2 = l2' ++ [x] ∧ l = l1 ++ y :: l2'.
Proof.
  destruct l2 as [|z l2 _] using rev_ind.
  - intros H. apply app_inj_tail in H as [-> ->]. by left.
  - rewrite app_comm_cons, app_assoc. intros H. apply app_inj_tail in H as [-> ->]. right. by exists l2.
Qed.
Lemma sub_snoc tr x n q i : sub (tr ++ [x]) n q i ↔ watches_now x n q i ∨ sub tr n q i ∧ kept P [x] n q.
Proof.
  split.
  - intros [(tr1&tr2&fs&cwd&p&isrec&ev&Heq&Hd&He&Hk)|[Hi (tr1&tr2&fs&cwd&p&ev&Heq&Hd&Hne&Hk)]].
    + apply split_snoc in Heq as [(->&<-&->)|(tr2'&->&->)].
      * left. exists fs, cwd, p, isrec, ev. split_and!; try done; [|by left]. intros ->. destruct He as (?&He&_). by apply elem_of_nil in He.
      * apply kept_app in Hk as [Hk1 Hk2]. right. split; [|done]. left. by exists tr1, tr2', fs, cwd, p, isrec, ev.
    + apply split_snoc in Heq as [(->&<-&->)|(tr2'&->&->)].
      * left. exists fs, cwd, p, true, ev. split_and!; try done. by right.
      * apply kept_app in Hk as [Hk1 Hk2]. right. split; [|done]. right. split; [done|]. by exists tr1, tr2', fs, cwd, p, ev.
  - intros [(fs&cwd&p&isrec&ev&->&Hd&Hne&[He|[-> Hi]])|[[(tr1&tr2&fs&cwd&p&isrec&ev&->&Hd&He&Hk)|[Hi (tr1&tr2&fs&cwd&p&ev&->&Hd&Hne&Hk)]] Hx]].
    + left. exists tr, [], fs, cwd, p, isrec, ev. split_and!; try done. apply kept_nil.
    + right. split; [done|]. exists tr, [], fs, cwd, p, ev. split_and!; try done. apply kept_nil.
    + left. exists tr1, (tr2 ++ [x]), fs, cwd, p, isrec, ev. split_and!; try done; [by rewrite <-app_assoc|]. by apply kept_app.
    + right. split; [done|]. exists tr1, (tr2 ++ [x]), fs, cwd, p, ev. split_and!; try done; [by rewrite <-app_assoc|]. by apply kept_app.
Qed.
Lemma kept_1 x n q : kept P [x] n q ↔ x.1 ≠ AStop n ∧ ∀ p, x.1 = AEvent (Remove P) p → ¬ p `prefix_of` q.
Proof.
  destruct x as [o r]. cbn [fst]. split.
  - intros [H1 H2]. split; [intros ->; by destruct (H1 r); left|]. intros p ->. apply (H2 p r). left.
  - intros [H1 H2]. split.
    + intros r' H%elem_of_list_singleton. injection H as <- _. done.
    + intros p r' H%elem_of_list_singleton. injection H as <- _. by apply H2.
Qed.
Lemma asked_sub tr trs n q i : Forall2 trans tr trs → q ≠ [] → [] ∉ q → has (asked P (concat trs) q n) i ↔ sub tr n q i.
Proof.
  intros Ht Hq Hq'. revert trs Ht. induction tr as [|[o r] tr IH] using rev_ind; intros trs Ht.
  { apply Forall2_nil_inv_l in Ht as ->. split; [intros H; by apply has_0 in H|].
    intros [(tr1&?&?&?&?&?&?&Heq&_)|[_ (tr1&?&?&?&?&?&Heq&_)]]; by destruct tr1. }
  apply Forall2_app_inv_l in Ht as (trs1&l&Ht&Hl&->). apply Forall2_cons_inv_l in Hl as (x&l'&Htr&Hl&->). apply Forall2_nil_inv_l in Hl as ->.
  rewrite concat_app. cbn [concat]. rewrite app_nil_r, sub_snoc, kept_1, <-(IH _ Ht). cbn [fst].
  unfold asked. rewrite foldl_app. fold (asked P (concat trs1)). set (g := asked P (concat trs1)).
  inversion Htr as [? ? Hv|fs cwd p c events e|fs cwd p m events r' isrec ph Hne Hd|m|ev p]; subst; cbn [foldl ask].
  - assert (o ≠ AStop n ∧ ∀ p, o ≠ AEvent (Remove P) p) as [H1 H2] by (by destruct o as [? ? ? [?|] [|]| |]).
    split; [intros H; right; split; [done|]; split; [done|]; intros p Hp; by destruct (H2 p)|].
    intros [(fs&cwd&p&isrec&events&[= -> ->]&_&Hne&_)|[H _]]; [by destruct events|done].
  - split; [by intros H; right|]. intros [(?&?&?&?&?&[=]&_)|[H _]]; done.
  - destruct r'.
    + case_decide as Hdec.
      * destruct Hdec as [Hdec ->]. assert (ph = q) as ->.
        { destruct ph; [|done]. exfalso. apply Hq'. rewrite <-Hdec. by left. }
        rewrite !has_lor, (C01_union P events) by done. unfold rec_bit. split.
        -- intros [[H|H]|H]; [right; by split|left; exists fs, cwd, p, isrec, events; split_and!; try done; by left|].
           left. exists fs, cwd, p, isrec, events. split_and!; try done. right. destruct isrec; [done|by apply has_0 in H].
        -- intros [(fs'&cwd'&p'&isrec'&events'&[= <- <- <- <-]&Hd'&_&H)|[H _]]; [|by left; left].
           destruct (denotes_det _ _ _ _ _ _ _ Hd Hd') as [<- _]. destruct H as [H|[-> H]]; [left; by right|by right].
      * split; [by intros H; right|]. intros [(fs'&cwd'&p'&isrec'&events'&[= <- <- <- <- <-]&Hd'&_&_)|[H _]]; [|done].
        destruct (denotes_det _ _ _ _ _ _ _ Hd Hd') as [_ <-]. destruct Hdec. split; [by destruct ph|done].
    + split; [by intros H; right|]. intros [(?&?&?&?&?&[=]&_)|[H _]]; done.
    + split; [by intros H; right|]. intros [(?&?&?&?&?&[=]&_)|[H _]]; done.
  - case_decide as Hdec; subst.
    + split; [intros H; by apply has_0 in H|]. intros [(?&?&?&?&?&[=]&_)|[_ [H _]]]; done.
    + split; [intros H; right; split; [done|]; split; [congruence|done]|]. intros [(?&?&?&?&?&[=]&_)|[H _]]; done.
  - case_decide as Hdec.
    + destruct Hdec as [-> Hp]. split; [intros H; by apply has_0 in H|]. intros [(?&?&?&?&?&[=]&_)|[_ [_ H]]]. by destruct (H p).
    + split; [intros H; right; split; [done|]; split; [done|]; intros p' [= -> ->] Hp'; by destruct Hdec|]. intros [(?&?&?&?&?&[=]&_)|[H _]]; done.
Qed.
Lemma asked_root tr trs n : Forall2 trans tr trs → asked P (concat trs) [] n = 0.
Proof.
  intros Ht. revert trs Ht. induction tr as [|[o r] tr IH] using rev_ind; intros trs Ht.
  { by apply Forall2_nil_inv_l in Ht as ->. }
  apply Forall2_app_inv_l in Ht as (trs1&l&Ht&Hl&->). apply Forall2_cons_inv_l in Hl as (x&l'&Htr&Hl&->). apply Forall2_nil_inv_l in Hl as ->.
  rewrite concat_app. cbn [concat]. rewrite app_nil_r. unfold asked. rewrite foldl_app. fold (asked P (concat trs1)). 
  specialize (IH _ Ht).
  inversion Htr as [? ? Hv|fs cwd p c events e|fs cwd p m events r' isrec ph Hne Hd|m|ev p]; subst; cbn [foldl ask]; try done.
  - destruct r'; try done. rewrite decide_False; [done|]. intros [H _]. by destruct ph.
  - by case_decide.
  - by case_decide.
Qed.
End facts.
