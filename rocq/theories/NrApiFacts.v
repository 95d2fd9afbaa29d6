(** * NrApiFacts: histories of API calls on a changing filesystem as histories of the non-recursive tree *)
From Verif Require Import Base Event Watchpoint WatchpointFacts Paths PathsFacts Loop LoopFacts
  Node NodeFacts SpecTree NonRec SpecNonRec SpecNonRecOS SpecOS NonRecCov NonRecRun Rec SpecRec Prop_Basics Prop_NonRec
  Clean SpecClean CleanFacts Prop_Clean Api SpecApi ApiFacts Prop_Api SpecNrApi.
Local Open Scope N_scope.

Section hist.
Context (P : platform) (HP : platform_ok P).
Notation ltrans := (trans P).
Notation atouched := (SpecNrApi.atouched P).
Notation lexec := (SpecNrApi.lexec P).
Notation watches_below := (SpecNrApi.watches_below P).
Lemma trans_at tr trs l1 x l2 : Forall2 ltrans tr trs → concat trs = l1 ++ x :: l2 →
  ∃ tr1 y tr2 trs2, tr = tr1 ++ y :: tr2 ∧ ltrans y [x] ∧ Forall2 ltrans tr2 trs2 ∧ concat trs2 = l2.
Proof.
  intros Ht. revert l1. induction Ht as [|y l tr trs Hy Ht IH]; intros l1 Heq; cbn [concat] in Heq; [by destruct l1|].
  assert (l = [] ∨ ∃ z, l = [z]) as [->|[z ->]] by (inversion Hy; eauto).
  - destruct (IH l1 Heq) as (tr1&y'&tr2&trs2&->&H). by exists (y :: tr1), y', tr2, trs2.
  - destruct l1 as [|z' l1]; injection Heq as -> Heq.
    + by exists [], y, tr, trs.
    + destruct (IH l1 Heq) as (tr1&y'&tr2&trs2&->&H). by exists (y :: tr1), y', tr2, trs2.
Qed.
Lemma trans_elem tr trs x : Forall2 ltrans tr trs → x ∈ concat trs → ∃ y, y ∈ tr ∧ ltrans y [x].
Proof.
  intros Ht Hx. apply elem_of_list_split in Hx as (l1&l2&Hx). destruct (trans_at _ _ _ _ _ Ht Hx) as (tr1&y&tr2&_&->&Hy&_).
  exists y. split; [|done]. apply elem_of_app. right. left.
Qed.
Lemma event_trans tr trs ev p r : Forall2 ltrans tr trs → (AEvent ev p, r) ∈ tr → ∃ r', (NEvent ev p, r') ∈ concat trs.
Proof.
  intros Ht. induction Ht as [|y l tr trs Hy Ht IH]; intros H; [by apply elem_of_nil in H|]. cbn [concat].
  apply elem_of_cons in H as [<-|H]; [|destruct (IH H) as [r' Hr]; exists r'; apply elem_of_app; by right].
  inversion Hy as [? ? Hv| | | |]; subst; [by destruct Hv|]. exists ROk. apply elem_of_app. left. left.
Qed.
Lemma touched_api tr trs p : Forall2 ltrans tr trs → gpath slash p → touched P (concat trs) p → atouched tr p.
Proof.
  intros Ht (Hp0&_&Hp) (l1&p'&isrec&n&e&r&l2&Heq&Hpre&Hrm).
  destruct (trans_at _ _ _ _ _ Ht Heq) as (tr1&y&tr2&trs2&->&Hy&Ht2&<-).
  inversion Hy as [| |fs cwd x n' events r' isrec' ph Hne Hd| |]; subst.
  exists tr1, fs, cwd, x, n, events, r, tr2, isrec, ph. split_and!; try done.
  - destruct ph as [|c ph]; [|done]. exfalso. cbn [nodeof] in Hpre. destruct p as [|a p]; [done|].
    apply Hp. destruct Hpre as [z Hz]. injection Hz as <- Hz. left.
  - intros a r' Ha. destruct (event_trans _ _ _ _ _ Ht2 Ha) as [r'' Hr]. by eapply Hrm.
Qed.
Lemma join_named events : (∃ e, e ∈ events ∧ e ≠ 0) → joinevents P events ≠ 0.
Proof.
  intros (e&He&[i Hi]%nonzero_bit). apply nonzero_bit. exists i. apply C01_union; [by intros ->; apply elem_of_nil in He|]. by exists e.
Qed.
Lemma trans_good E o r o' r' : ltrans (o, r) [(o', r')] → call_good E o → os_good E o'.
Proof.
  intros Ht Hg. inversion Ht as [| |fs cwd p n events r0 isrec ph Hne Hd| |]; subst; try done. destruct Hg as [He Hr].
  apply join_named in He. destruct isrec; [|done].
  destruct Hr as [Hr Hd']; [by destruct Hd as (x&_&->&_); exists x|]. split_and!; try done.
  destruct ph as [|c ph]; [done|]. destruct Hd as (?&?&_&_&_&_&Hd). exact (real_proper fs _ Hd).
Qed.
Lemma lexec_fexec tr D s : lexec tr D s → ∃ trs, Forall2 ltrans tr trs ∧ fexec P slash (concat trs) D s.
Proof.
  induction 1 as [D HD|tr D s E o s' r _ (trs&Ht&IH) HE Hne Hok Hs|tr D D' p s E s' r _ (trs&Ht&IH) HE Hrel HD' HF Hp Hsub Hnew HpD Hnt Hs
    |tr D D' p s E s' r _ (trs&Ht&IH) HE Hrel Hp HD' Hs].
  - exists []. split; [done|]. by constructor.
  - destruct (nr_trans P E s o s' r HE (λ H, proj1 (Hok H)) Hs) as [[Htr ->]|(o'&r'&Htr&Ho&Hs')].
    + exists (trs ++ [[]]). split; [by apply Forall2_app; [|constructor]|]. by rewrite concat_app, app_nil_r.
    + assert (¬ vain o) as Hv. { inversion Htr as [| |? ? ? ? events ? ? ? He| |]; subst; [destruct events; [done|simpl; tauto]|simpl; tauto..]. }
      destruct (Hok Hv) as (_&Hg&HF). exists (trs ++ [[(o', r')]]). split; [by apply Forall2_app; [|constructor]|]. rewrite concat_app.
      eapply fx_op; try done; [by eapply trans_good|]. intros ev p ->. inversion Htr; subst. by eapply Hne.
  - assert (gpath slash p) as Hg by (by apply HD'). injection Hs as <- <-.
    exists (trs ++ [[(NEvent (Create P) p, ROk)]]). split; [apply Forall2_app; [done|constructor; [constructor|done]]|]. rewrite concat_app.
    eapply fx_mkdir; try done. intros Hto. apply Hnt. by eapply touched_api.
  - injection Hs as <- <-. exists (trs ++ [[(NEvent (Remove P) p, ROk)]]). split; [apply Forall2_app; [done|constructor; [constructor|done]]|].
    rewrite concat_app. by eapply fx_rmdir.
Qed.
Lemma lexec_user tr D s : lexec tr D s → user_calls P tr.
Proof.
  induction 1 as [D HD|tr D s E o s' r _ IH HE Hne Hok Hs|tr D D' p s E s' r _ IH HE Hrel HD' HF Hp Hsub Hnew HpD Hnt Hs
    |tr D D' p s E s' r _ IH HE Hrel Hp HD' Hs]; intros o' r' Ho Hv; [by apply elem_of_nil in Ho|..].
  all: apply elem_of_app in Ho as [Ho|Ho%elem_of_list_singleton]; [by eapply IH|]; injection Ho as -> ->.
  - by apply Hok.
  - by apply HD'.
  - done.
Qed.
Lemma below_force tr trs n a g : user_calls P tr → Forall2 ltrans tr trs → (∀ fs cwd p c l r, (AWatch fs cwd p c l, r) ∈ tr → l ≠ [] → c ≠ None → ¬ denotes fs cwd p true []) →
  g ≠ 0 → watches_below tr n a g → ∃ e, in_force P (concat trs) a n e ∧ incl_ev g e.
Proof.
  intros Hu Ht Hroot Hg0 (tr1&tr2&fs&cwd&p&events&->&Hd&Hg&Hst&Hrm).
  assert (events ≠ []) as Hne.
  { intros ->. apply nonzero_bit in Hg0 as [j Hj]. destruct (Hg j Hj) as (e&He&_). by apply elem_of_nil in He. }
  assert (a ≠ []) as Ha. { intros ->. eapply (Hroot fs cwd p); [|done| |done]; [apply elem_of_app; right; left|done]. }
  apply Forall2_app_inv_l in Ht as (trs1&l&Ht1&Hl&->). apply Forall2_cons_inv_l in Hl as (x&trs2&Hx&Ht2&->).
  inversion Hx as [? ? Hv| |fs' cwd' p' m events' r' isrec ph _ Hd'| |]; subst; [by destruct events|].
  destruct (denotes_det _ _ _ _ _ _ _ Hd Hd') as [<- <-]. assert (nodeof a = a) as Hna by (by destruct a).
  exists (joinevents P events). split.
  - exists (concat trs1), (concat trs2). split_and!; [rewrite concat_app, Hna; cbn [concat app]; done| |].
    + intros r Hr. destruct (trans_elem _ _ _ Ht2 Hr) as (y&Hy&Hty). inversion Hty; subst. by eapply Hst.
    + intros q r Hr. destruct (trans_elem _ _ _ Ht2 Hr) as (y&Hy&Hty). inversion Hty; subst. by eapply Hrm.
  - intros j Hj. apply C01_union; [done|]. by apply Hg.
Qed.
Lemma lexec_root tr D s fs cwd p c l r : lexec tr D s → (AWatch fs cwd p c l, r) ∈ tr → l ≠ [] → c ≠ None → ¬ denotes fs cwd p true [].
Proof.
  intros Hx. induction Hx as [D HD|tr D s E o s' r' _ IH HE Hne Hok Hs|tr D D' q s E s' r' _ IH HE Hrel HD' HF Hp Hsub Hnew HpD Hnt Hs
    |tr D D' q s E s' r' _ IH HE Hrel Hp HD' Hs]; intros Ho Hl Hc; [by apply elem_of_nil in Ho|..].
  all: apply elem_of_app in Ho as [Ho|Ho%elem_of_list_singleton]; [by apply IH|]; try done; injection Ho as <- <-.
  destruct Hok as (_&[_ Hg]&_); [intros Hv; by destruct c, l|]. intros Hd. apply Hg; [|done]. by destruct Hd as (x&_&->&_); exists x.
Qed.
End hist.
