(** * InotifyPipeFacts: invariants of the runs of the inotify goroutines *)
From Verif Require Import Base Event Paths Clean Inotify SpecInotify InotifyFacts InotifyTab InotifyPipe SpecInotifyPipe.
Local Open Scope N_scope.

(** ** Lists of labels *)
Lemma queued_snoc ls l : queued (ls ++ [l]) = queued ls ++ queued [l].
Proof. unfold queued. by rewrite flat_map_app. Qed.
Lemma batches_snoc ls l : batches (ls ++ [l]) = batches ls ++ batches [l].
Proof. unfold batches. by rewrite omap_app. Qed.
Lemma sends_app k l1 l2 : sends k (l1 ++ l2) = sends k l1 ++ sends k l2.
Proof. unfold sends. by rewrite omap_app. Qed.
Lemma calls_app l1 l2 : calls (l1 ++ l2) = calls l1 ++ calls l2.
Proof. unfold calls. by rewrite omap_app. Qed.
Lemma elem_of_sends k ls e : e ∈ sends k ls → PSent k e ∈ ls.
Proof.
  unfold sends. rewrite elem_of_list_omap. intros (l&Hl&He). destruct l; try done.
  case_decide; [|done]. injection He as ->. by subst.
Qed.
Lemma snoc_elem {A} (x y : A) l : x ∈ l ++ [y] ↔ x ∈ l ∨ x = y.
Proof. by rewrite elem_of_app, elem_of_list_singleton. Qed.

(** ** Runs *)
Lemma prun_app l1 l2 s : prun (l1 ++ l2) s → ∃ s1, prun l1 s1.
Proof.
  revert s. induction l2 as [|l l2 IH] using rev_ind; intros s Hr; [rewrite app_nil_r in Hr; eauto|].
  rewrite app_assoc in Hr. inversion Hr as [Hn|? s0 ? ? Hr0 Hs Hn]; [by destruct (l1 ++ l2)|].
  apply app_inj_tail in Hn as [-> _]. by eapply IH.
Qed.
Lemma prun_snoc ls l s : prun (ls ++ [l]) s → ∃ s0, prun ls s0 ∧ pstep s0 l s.
Proof.
  intros Hr. inversion Hr as [Hn|? s0 ? ? Hr0 Hs Hn]; [by destruct ls|].
  apply app_inj_tail in Hn as [-> ->]. eauto.
Qed.

(** [psteps s ls s']: the steps [ls] lead from [s] to [s']. *)
Inductive psteps (s : pst) : list plab → pst → Prop :=
  | psteps_nil : psteps s [] s
  | psteps_snoc ls s1 l s2 : psteps s ls s1 → pstep s1 l s2 → psteps s (ls ++ [l]) s2.
Lemma prun_psteps l0 s0 l1 s : prun l0 s0 → psteps s0 l1 s → prun (l0 ++ l1) s.
Proof.
  intros H0. induction 1 as [|ls s1 l s2 _ IH Hs]; [by rewrite app_nil_r|]. rewrite app_assoc. by eapply prun_step.
Qed.
Lemma prun_split l0 l1 s : prun (l0 ++ l1) s → ∃ s0, prun l0 s0 ∧ psteps s0 l1 s.
Proof.
  revert s. induction l1 as [|l l1 IH] using rev_ind; intros s Hr.
  - rewrite app_nil_r in Hr. exists s. split; [done|constructor].
  - rewrite app_assoc in Hr. apply prun_snoc in Hr as (s1&Hr&Hs). destruct (IH _ Hr) as (s0&H0&H1).
    exists s0. split; [done|]. by eapply psteps_snoc.
Qed.
Lemma psteps_app s l1 l2 s' : psteps s (l1 ++ l2) s' → ∃ s1, psteps s l1 s1 ∧ psteps s1 l2 s'.
Proof.
  revert s'. induction l2 as [|l l2 IH] using rev_ind; intros s' Hr.
  - rewrite app_nil_r in Hr. exists s'. split; [done|constructor].
  - rewrite app_assoc in Hr. inversion Hr as [Hn|? s1 ? ? H1 H2 Hn]; [by destruct (l1 ++ l2)|].
    apply app_inj_tail in Hn as [-> ->]. destruct (IH _ H1) as (s0&H3&H4). exists s0. split; [done|]. by eapply psteps_snoc.
Qed.

(** ** The table follows the history of the calls *)
Definition virt (s : pst) : ist :=
  match p_call s with Some (_, _, u) => set_m (p_i s) (mapply u (i_m (p_i s))) | None => p_i s end.
Lemma begin_istep E s o i u : begin E s o = Some (i, u) →
  istep E s o = (set_m i (mapply u (i_m i)), true) ∧ i_m i = i_m s.
Proof.
  destruct o as [p e|p| |f]; cbn [begin istep]; [| |done..].
  - unfold w_begin, i_watch. destruct (negb _); [done|]. unfold lazyinit.
    destruct (if i_open s then Some s else _) as [s1|] eqn:Es; [|done]. destruct (ie_ino E) as [ino|]; [|done].
    assert (i_m s1 = i_m s) as Hm by (destruct (i_open s); [by injection Es as ->|]; destruct (ie_ok E); [by injection Es as <-|done]).
    unfold kadd. destruct (kfind _ _); intros [= <- <-]; done.
  - unfold u_begin, i_unwatch. destruct (head _) as [[wd w]|]; [|done]. destruct (ie_ok E); [|done]. intros [= <- <-]. done.
Qed.
Lemma virt_exec ls s : prun ls s → iexec (calls ls) (virt s).
Proof.
  induction 1 as [|ls s l s' Hr IH Hs]; [constructor|]. rewrite calls_app.
  destruct Hs as [s E o i u HE Hc Hb|s E o u Hc|s E o i HE Hc Ho1 Ho2 Hst|s f ev isdir cookie name r rs Hk Hrs|s rs Hro Hrs|s f i|s es q Hl Ho Hq|s k es j Hl Hj|s k es j Hj|s k e l j Hj|s k j Hj].
  all: try (cbn; rewrite app_nil_r; exact IH).
  - unfold virt in IH. rewrite Hc in IH. destruct (begin_istep _ _ _ _ _ Hb) as [Hst Hm].
    change (calls [_]) with [(E, o, true)]. unfold virt. cbn [p_call p_i]. by eapply iexec_step.
  - cbn. rewrite app_nil_r. unfold virt in *. rewrite Hc in IH. exact IH.
  - unfold virt in IH. rewrite Hc in IH. change (calls [_]) with [(E, o, false)]. unfold virt. cbn [p_call p_i]. by eapply iexec_step.
  - change (calls [_]) with [(IEnv true None id, IGone f, true)]. eapply iexec_step; [exact IH|by intros l|].
    cbn [istep]. unfold virt. cbn [p_call p_i]. destruct (p_call s) as [[[E o] u]|]; done.
Qed.

(** ** Where each batch is *)
Definition unseen (ls : list plab) (k : nat) : Prop := PTrans k ∉ ls ∧ PDone k ∉ ls ∧ sends k ls = [].
Definition fresh_at (ls : list plab) (k : nat) (es : list raw) : Prop := batches ls !! k = Some es ∧ unseen ls k.
Definition trans_at (ls : list plab) (k : nat) (es : list raw) (l : list ievent) : Prop :=
  batches ls !! k = Some es ∧
  ∃ l1 l2 s1, ls = l1 ++ PTrans k :: l2 ∧ prun l1 s1 ∧ PTrans k ∉ l1 ∧ PTrans k ∉ l2 ∧ batches l1 !! k = Some es ∧
    sends k l1 = [] ∧ sends k ls ++ l = sent (i_m (p_i s1)) es.
Definition about (l : plab) (k : nat) : Prop := l = PTrans k ∨ l = PDone k ∨ ∃ e, l = PSent k e.
Definition cid (c : qcons) : option nat := match c with QWait => None | QGot k _ | QSend k _ => Some k end.
Record binv (ls : list plab) (s : pst) : Prop := {
  b_len : length (batches ls) = p_n s;
  b_cat : concat (batches ls) ++ p_q s = queued ls;
  b_loop : ∀ k es, p_loop s = QGive k es → fresh_at ls k es;
  b_got : ∀ j k es, p_cons s !! j = Some (QGot k es) → fresh_at ls k es;
  b_send : ∀ j k l, p_cons s !! j = Some (QSend k l) → PDone k ∉ ls ∧ ∃ es, trans_at ls k es l;
  b_all : ∀ k es, batches ls !! k = Some es →
    p_loop s = QGive k es ∨ (∃ j, p_cons s !! j = Some (QGot k es)) ∨ (∃ j l, p_cons s !! j = Some (QSend k l)) ∨
    PDone k ∈ ls ∧ trans_at ls k es [];
  b_u1 : ∀ k es j c, p_loop s = QGive k es → p_cons s !! j = Some c → cid c ≠ Some k;
  b_u2 : ∀ j j' c c' k, p_cons s !! j = Some c → p_cons s !! j' = Some c' → cid c = Some k → cid c' = Some k → j = j';
  b_new : ∀ k, (p_n s ≤ k)%nat → unseen ls k;
}.
Lemma unseen_snoc ls l k : ¬ about l k → unseen ls k → unseen (ls ++ [l]) k.
Proof.
  intros Ha (H1&H2&H3). split_and!.
  - intros [?|<-]%snoc_elem; [done|]. destruct Ha. by left.
  - intros [?|<-]%snoc_elem; [done|]. destruct Ha. right. by left.
  - rewrite sends_app, H3. cbn. destruct l; try done. case_decide; [|done]. subst. destruct Ha. right. right. eauto.
Qed.
Lemma batches_mono ls l k es : batches ls !! k = Some es → batches (ls ++ [l]) !! k = Some es.
Proof. intros H. rewrite batches_snoc. by apply lookup_app_l_Some. Qed.
Lemma fresh_snoc ls l k es : ¬ about l k → fresh_at ls k es → fresh_at (ls ++ [l]) k es.
Proof. intros Ha [H1 H2]. split; [by apply batches_mono|by apply unseen_snoc]. Qed.
Lemma trans_snoc ls l k es x : ¬ about l k → trans_at ls k es x → trans_at (ls ++ [l]) k es x.
Proof.
  intros Ha (H1&l1&l2&s1&->&H2&H3&H4&H5&H6&H7). split; [by apply batches_mono|].
  exists l1, (l2 ++ [l]), s1. split_and!; try done.
  - by rewrite <-app_assoc.
  - intros [?|<-]%snoc_elem; [done|]. destruct Ha. by left.
  - rewrite sends_app. assert (sends k [l] = []) as ->; [|by rewrite app_nil_r].
    cbn. destruct l; try done. case_decide; [|done]. subst. destruct Ha. right. right. eauto.
Qed.
Lemma done_snoc ls l k : PDone k ∈ ls → PDone k ∈ ls ++ [l].
Proof. intros H. apply snoc_elem. by left. Qed.
Lemma notdone_snoc ls l k : ¬ about l k → PDone k ∉ ls → PDone k ∉ ls ++ [l].
Proof. intros Ha H [?|<-]%snoc_elem; [done|]. destruct Ha. right. by left. Qed.

(** Steps that leave the loop and the consumers alone. *)
Lemma binv_quiet ls s l s' : binv ls s →
  (∀ k, ¬ about l k) → batches [l] = [] → p_n s' = p_n s → p_loop s' = p_loop s → p_cons s' = p_cons s → p_q s' = p_q s ++ queued [l] →
  binv (ls ++ [l]) s'.
Proof.
  intros [B1 B2 B3 B4 B5 B6 B7 B8 B9] Ha Hb Hn Hl Hc Hq.
  assert (batches (ls ++ [l]) = batches ls) as Hbb by (by rewrite batches_snoc, Hb, app_nil_r).
  split; rewrite ?Hn, ?Hl, ?Hc, ?Hbb; try done.
  - by rewrite Hq, queued_snoc, <-B2, app_assoc.
  - intros k es Hk. apply fresh_snoc; [done|by apply B3].
  - intros j k es Hk. apply fresh_snoc; [done|by eapply B4].
  - intros j k x Hk. destruct (B5 _ _ _ Hk) as (Hd&es&Ht). split; [by apply notdone_snoc|]. exists es. by apply trans_snoc.
  - intros k es Hk. destruct (B6 _ _ Hk) as [H|[H|[H|[H1 H2]]]]; [by left|right; by left|right; right; by left|].
    right. right. right. split; [by apply done_snoc|by apply trans_snoc].
  - intros k Hk. apply unseen_snoc; [done|by apply B9].
Qed.
Lemma prun_binv ls s : prun ls s → binv ls s.
Proof.
  induction 1 as [|ls s l s' Hr IH Hs].
  { split; try done.
    - intros j k es Hj. cbn in Hj. destruct j as [|[|j]]; done.
    - intros j k x Hj. cbn in Hj. destruct j as [|[|j]]; done.
    - intros j j' c c' k Hj Hj'. cbn in Hj. destruct j as [|[|j]]; try done; injection Hj as <-; done.
    - intros k _. split_and!; [intros H; by apply elem_of_nil in H..|done]. }
  destruct Hs as [s E o i u HE Hc Hb|s E o u Hc|s E o i HE Hc Ho1 Ho2 Hst|s f ev isdir cookie name r rs Hk Hrs|s rs Hro Hrs|s f i|s es q Hl Ho Hq|s k es j Hl Hj|s k es j Hj|s k e l j Hj|s k j Hj].
  1-6: apply (binv_quiet _ _ _ _ IH); cbn; rewrite ?app_nil_r; try done; try (intros k [?|[?|[? ?]]]; done).
  - (* read *)
    destruct IH as [B1 B2 B3 B4 B5 B6 B7 B8 B9]. set (l := PRead (p_n s) es) in *.
    assert (∀ k, ¬ about l k) as Ha by (intros k [?|[?|[? ?]]]; done).
    assert (batches (ls ++ [l]) = batches ls ++ [es]) as Hbb by (by rewrite batches_snoc).
    split; cbn [p_n p_loop p_cons p_q]; rewrite ?Hbb.
    + rewrite app_length. cbn. lia.
    + rewrite queued_snoc, <-B2, Hq, concat_app. cbn. by rewrite !app_nil_r, <-app_assoc.
    + intros k es' [= <- <-]. split; [|apply unseen_snoc, B9; [done|lia]]. rewrite Hbb, lookup_app_r by lia. by rewrite <-B1, Nat.sub_diag.
    + intros j k es' Hk. apply fresh_snoc; [done|by eapply B4].
    + intros j k x Hk. destruct (B5 _ _ _ Hk) as (Hd&es'&Ht). split; [by apply notdone_snoc|]. exists es'. by apply trans_snoc.
    + intros k es' [Hk|[Hle Hk]]%lookup_app_Some.
      * destruct (B6 _ _ Hk) as [H|[H|[H|[H1 H2]]]]; [congruence|right; by left|right; right; by left|].
        right. right. right. split; [by apply done_snoc|by apply trans_snoc].
      * left. apply list_lookup_singleton_Some in Hk as [Hk <-]. f_equal. lia.
    + intros k es' j c [= <- <-] Hj Hid. assert (batches ls !! p_n s = None) as Hnone by (apply lookup_ge_None; lia).
      destruct c as [|k0 es0|k0 l0]; cbn in Hid; [done|injection Hid as ->..].
      * destruct (B4 _ _ _ Hj) as [Hx _]. congruence.
      * destruct (B5 _ _ _ Hj) as (_&?&Hx&_). congruence.
    + done.
    + intros k Hk. apply unseen_snoc, B9; [done|lia].
  - (* give *)
    destruct IH as [B1 B2 B3 B4 B5 B6 B7 B8 B9].
    assert (∀ k, ¬ about PTau k) as Ha by (intros k' [?|[?|[? ?]]]; done).
    assert (batches (ls ++ [PTau]) = batches ls) as Hbb by (by rewrite batches_snoc, app_nil_r).
    assert (j < length (p_cons s))%nat as Hlt by (by eapply lookup_lt_Some).
    split; cbn [p_n p_loop p_cons p_q]; rewrite ?Hbb; try done.
    + by rewrite queued_snoc, app_nil_r.
    + intros j' k' es' [(->&[= -> ->]&_)|[Hne Hj']]%list_lookup_insert_Some; apply fresh_snoc; try done; [by apply B3|by eapply B4].
    + intros j' k' x [(->&[=]&_)|[Hne Hj']]%list_lookup_insert_Some.
      destruct (B5 _ _ _ Hj') as (Hd&es'&Ht). split; [by apply notdone_snoc|]. exists es'. by apply trans_snoc.
    + intros k' es' Hk. destruct (B6 _ _ Hk) as [H|[[j' H]|[(j'&x&H)|[H1 H2]]]].
      * right. left. exists j. rewrite list_lookup_insert by done. rewrite Hl in H. by injection H as -> ->.
      * right. left. exists j'. rewrite list_lookup_insert_ne; [done|]. intros ->. congruence.
      * right. right. left. exists j', x. rewrite list_lookup_insert_ne; [done|]. intros ->. congruence.
      * right. right. right. split; [by apply done_snoc|by apply trans_snoc].
    + intros j1 j2 c1 c2 k' [(->&<-&_)|[Hne1 H1]]%list_lookup_insert_Some [(E2&<-&_)|[Hne2 H2]]%list_lookup_insert_Some Hi1 Hi2; try done.
      * cbn in Hi1. injection Hi1 as ->. by destruct (B7 _ _ _ _ Hl H2).
      * cbn in Hi2. injection Hi2 as ->. by destruct (B7 _ _ _ _ Hl H1).
      * by eapply B8.
    + intros k' Hk. apply unseen_snoc, B9; [done|lia].
  - (* transform *)
    destruct IH as [B1 B2 B3 B4 B5 B6 B7 B8 B9]. destruct (B4 _ _ _ Hj) as [Hbk (Hu1&Hu2&Hu3)].
    assert (∀ k', about (PTrans k) k' → k' = k) as Ha by (intros k' [?|[?|[? ?]]]; congruence).
    assert (batches (ls ++ [PTrans k]) = batches ls) as Hbb by (by rewrite batches_snoc, app_nil_r).
    assert (j < length (p_cons s))%nat as Hlt by (by eapply lookup_lt_Some).
    assert (∀ j' c, j ≠ j' → p_cons s !! j' = Some c → cid c ≠ Some k) as Hoth.
    { intros j' c Hne Hj' Hc. destruct Hne. by eapply (B8 _ _ _ _ k Hj Hj'). }
    assert (k < p_n s)%nat as Hkn by (rewrite <-B1; by eapply lookup_lt_Some).
    split; cbn [p_n p_loop p_cons p_q]; rewrite ?Hbb; try done.
    + by rewrite queued_snoc, app_nil_r.
    + intros k' es' Hk'. apply fresh_snoc; [|by apply B3]. intros ->%Ha. by apply (B7 _ _ _ _ Hk' Hj).
    + intros j' k' es' [(->&[=]&_)|[Hne Hj']]%list_lookup_insert_Some. apply fresh_snoc; [|by eapply B4].
      intros ->%Ha. by apply (Hoth _ _ Hne Hj').
    + intros j' k' x [(->&[= <- <-]&_)|[Hne Hj']]%list_lookup_insert_Some.
      * split; [apply not_elem_of_app; split; [done|]; by intros H%elem_of_list_singleton|]. exists es. split; [by rewrite Hbb|].
        exists ls, [], s. split_and!; try done; [intros H; by apply elem_of_nil in H|]. by rewrite sends_app, Hu3.
      * destruct (B5 _ _ _ Hj') as (Hd&es'&Ht).
        assert (¬ about (PTrans k) k') as Hn by (intros ->%Ha; by apply (Hoth _ _ Hne Hj')).
        split; [by apply notdone_snoc|]. exists es'. by apply trans_snoc.
    + intros k' es' Hk. destruct (B6 _ _ Hk) as [H|[[j' H]|[(j'&x&H)|[H1 H2]]]].
      * by left.
      * right. destruct (decide (j = j')) as [<-|Hne].
        -- right. left. assert (k' = k) as -> by congruence. eexists j, _. by rewrite list_lookup_insert.
        -- left. exists j'. by rewrite list_lookup_insert_ne.
      * right. right. left. exists j', x. rewrite list_lookup_insert_ne; [done|]. intros ->. congruence.
      * right. right. right. split; [by apply done_snoc|]. apply trans_snoc; [|done]. by intros ->%Ha.
    + intros k' es' j' c Hk' [(->&<-&_)|[Hne Hj']]%list_lookup_insert_Some; [|by eapply B7].
      intros [= <-]. by apply (B7 _ _ _ _ Hk' Hj).
    + intros j1 j2 c1 c2 k' [(->&<-&_)|[Hne1 H1]]%list_lookup_insert_Some [(E2&<-&_)|[Hne2 H2]]%list_lookup_insert_Some Hi1 Hi2; try done.
      * cbn in Hi1. injection Hi1 as ->. by destruct (Hoth _ _ Hne2 H2).
      * cbn in Hi2. injection Hi2 as ->. by destruct (Hoth _ _ Hne1 H1).
      * by eapply B8.
    + intros k' Hk. apply unseen_snoc, B9; [|lia]. intros ->%Ha. lia.
  - (* send *)
    destruct IH as [B1 B2 B3 B4 B5 B6 B7 B8 B9]. destruct (B5 _ _ _ Hj) as (Hd&es&Hbk&l1&l2&s1&Hls&Ht1&Ht2&Ht3&Ht4&Ht5&Ht6).
    assert (∀ k', about (PSent k e) k' → k' = k) as Ha by (intros k' [?|[?|[? ?]]]; congruence).
    assert (batches (ls ++ [PSent k e]) = batches ls) as Hbb by (by rewrite batches_snoc, app_nil_r).
    assert (j < length (p_cons s))%nat as Hlt by (by eapply lookup_lt_Some).
    assert (∀ j' c, j ≠ j' → p_cons s !! j' = Some c → cid c ≠ Some k) as Hoth.
    { intros j' c Hne Hj' Hc. destruct Hne. by eapply (B8 _ _ _ _ k Hj Hj'). }
    assert (k < p_n s)%nat as Hkn by (rewrite <-B1; by eapply lookup_lt_Some).
    split; cbn [p_n p_loop p_cons p_q]; rewrite ?Hbb; try done.
    + by rewrite queued_snoc, app_nil_r.
    + intros k' es' Hk'. apply fresh_snoc; [|by apply B3]. intros ->%Ha. by apply (B7 _ _ _ _ Hk' Hj).
    + intros j' k' es' [(->&[=]&_)|[Hne Hj']]%list_lookup_insert_Some. apply fresh_snoc; [|by eapply B4].
      intros ->%Ha. by apply (Hoth _ _ Hne Hj').
    + intros j' k' x [(->&[= <- <-]&_)|[Hne Hj']]%list_lookup_insert_Some.
      * split; [apply not_elem_of_app; split; [done|]; by intros H%elem_of_list_singleton|]. exists es. split; [by rewrite Hbb|].
        exists l1, (l2 ++ [PSent k e]), s1. split_and!; try done.
        -- by rewrite Hls, <-app_assoc.
        -- apply not_elem_of_app; split; [done|]; by intros H%elem_of_list_singleton.
        -- rewrite sends_app, <-Ht6. cbn. rewrite decide_True by done. by rewrite <-app_assoc.
      * destruct (B5 _ _ _ Hj') as (Hd'&es'&Ht).
        assert (¬ about (PSent k e) k') as Hn by (intros ->%Ha; by apply (Hoth _ _ Hne Hj')).
        split; [by apply notdone_snoc|]. exists es'. by apply trans_snoc.
    + intros k' es' Hk. destruct (B6 _ _ Hk) as [H|[[j' H]|[(j'&x&H)|[H1 H2]]]].
      * by left.
      * right. left. exists j'. rewrite list_lookup_insert_ne; [done|]. intros ->. congruence.
      * right. right. left. destruct (decide (j = j')) as [<-|Hne].
        -- assert (k' = k) as -> by congruence. eexists j, _. by rewrite list_lookup_insert.
        -- exists j', x. by rewrite list_lookup_insert_ne.
      * right. right. right. split; [by apply done_snoc|]. apply trans_snoc; [|done]. by intros ->%Ha.
    + intros k' es' j' c Hk' [(->&<-&_)|[Hne Hj']]%list_lookup_insert_Some; [|by eapply B7].
      intros [= <-]. by apply (B7 _ _ _ _ Hk' Hj).
    + intros j1 j2 c1 c2 k' [(->&<-&_)|[Hne1 H1]]%list_lookup_insert_Some [(E2&<-&_)|[Hne2 H2]]%list_lookup_insert_Some Hi1 Hi2; try done.
      * cbn in Hi1. injection Hi1 as ->. by destruct (Hoth _ _ Hne2 H2).
      * cbn in Hi2. injection Hi2 as ->. by destruct (Hoth _ _ Hne1 H1).
      * by eapply B8.
    + intros k' Hk. apply unseen_snoc, B9; [|lia]. intros ->%Ha. lia.
  - (* done *)
    destruct IH as [B1 B2 B3 B4 B5 B6 B7 B8 B9]. destruct (B5 _ _ _ Hj) as (Hd&es&Hbk&l1&l2&s1&Hls&Ht1&Ht2&Ht3&Ht4&Ht5&Ht6).
    assert (∀ k', about (PDone k) k' → k' = k) as Ha by (intros k' [?|[?|[? ?]]]; congruence).
    assert (batches (ls ++ [PDone k]) = batches ls) as Hbb by (by rewrite batches_snoc, app_nil_r).
    assert (j < length (p_cons s))%nat as Hlt by (by eapply lookup_lt_Some).
    assert (∀ j' c, j ≠ j' → p_cons s !! j' = Some c → cid c ≠ Some k) as Hoth.
    { intros j' c Hne Hj' Hc. destruct Hne. by eapply (B8 _ _ _ _ k Hj Hj'). }
    assert (k < p_n s)%nat as Hkn by (rewrite <-B1; by eapply lookup_lt_Some).
    split; cbn [p_n p_loop p_cons p_q]; rewrite ?Hbb; try done.
    + by rewrite queued_snoc, app_nil_r.
    + intros k' es' Hk'. apply fresh_snoc; [|by apply B3]. intros ->%Ha. by apply (B7 _ _ _ _ Hk' Hj).
    + intros j' k' es' [(->&[=]&_)|[Hne Hj']]%list_lookup_insert_Some. apply fresh_snoc; [|by eapply B4].
      intros ->%Ha. by apply (Hoth _ _ Hne Hj').
    + intros j' k' x [(->&[=]&_)|[Hne Hj']]%list_lookup_insert_Some.
      destruct (B5 _ _ _ Hj') as (Hd'&es'&Ht).
      assert (¬ about (PDone k) k') as Hn by (intros ->%Ha; by apply (Hoth _ _ Hne Hj')).
      split; [by apply notdone_snoc|]. exists es'. by apply trans_snoc.
    + intros k' es' Hk. destruct (decide (k' = k)) as [->|Hkk].
      * right. right. right. assert (es' = es) as -> by congruence. split; [apply snoc_elem; by right|].
        split; [by rewrite Hbb|]. exists l1, (l2 ++ [PDone k]), s1. split_and!; try done.
        -- by rewrite Hls, <-app_assoc.
        -- apply not_elem_of_app; split; [done|]; by intros H%elem_of_list_singleton.
        -- rewrite sends_app. cbn. by rewrite app_nil_r.
      * destruct (B6 _ _ Hk) as [H|[[j' H]|[(j'&x&H)|[H1 H2]]]].
        -- by left.
        -- right. left. exists j'. rewrite list_lookup_insert_ne; [done|]. intros ->. congruence.
        -- right. right. left. exists j', x. rewrite list_lookup_insert_ne; [done|]. intros ->. congruence.
        -- right. right. right. split; [by apply done_snoc|]. apply trans_snoc; [|done]. by intros ->%Ha.
    + intros k' es' j' c Hk' [(->&<-&_)|[Hne Hj']]%list_lookup_insert_Some; [done|by eapply B7].
    + intros j1 j2 c1 c2 k' [(->&<-&_)|[Hne1 H1]]%list_lookup_insert_Some [(E2&<-&_)|[Hne2 H2]]%list_lookup_insert_Some Hi1 Hi2; try done.
      by eapply B8.
    + intros k' Hk. apply unseen_snoc, B9; [|lia]. intros ->%Ha. lia.
Qed.

(** ** Histories *)
Lemma orderly_app t1 t2 : orderly (t1 ++ t2) → orderly t1.
Proof.
  induction t2 as [|x t2 IH] using rev_ind; [by rewrite app_nil_r|]. rewrite app_assoc. intros H%orderly_snoc. by apply IH.
Qed.
Lemma call_shape ls s E o u : prun ls s → p_call s = Some (E, o, u) →
  match o with IWatch p e => ∃ wd, u = MSet wd (Wd p e) | IUnwatch p => ∃ wd, u = MDel wd | _ => False end.
Proof.
  intros Hr. revert E o u. induction Hr as [|ls s l s' Hr IH Hs]; intros E o u Hc; [done|].
  destruct Hs as [s E' o' i u' HE Hc' Hb|s E' o' u' Hc'|s E' o' i HE Hc' Ho1 Ho2 Hst|s f ev isdir cookie name r rs Hk Hrs|s rs Hro Hrs|s f i|s es q Hl Ho Hq|s k es j Hl Hj|s k es j Hj|s k e l j Hj|s k j Hj].
  all: cbn [p_call] in Hc; try done; try (by eapply IH).
  injection Hc as -> -> ->. destruct o as [p e|p| |f]; cbn [begin] in Hb; [| |done..].
  - unfold w_begin in Hb. destruct (negb _); [done|]. destruct (lazyinit _ _) as [s1|]; [|done]. destruct (ie_ino E) as [ino|]; [|done].
    unfold kadd in Hb. destruct (kfind _ _); injection Hb as _ <-; eauto.
  - unfold u_begin in Hb. destruct (head _) as [[wd w]|]; [|done]. destruct (ie_ok E); [|done]. injection Hb as _ <-. eauto.
Qed.
(** The table is that of the calls that have returned. *)
Lemma table_exec ls s : prun ls s →
  ∃ t0 t3 i0, ls = t0 ++ t3 ∧ (∀ E o, PEnd E o ∉ t3) ∧ iexec (calls t0) i0 ∧ i_m (p_i s) = i_m i0.
Proof.
  intros Hr. destruct (p_call s) as [c|] eqn:Hc.
  2:{ exists ls, [], (p_i s). split_and!; [by rewrite app_nil_r|intros ?? H; by apply elem_of_nil in H| |done].
      pose proof (virt_exec _ _ Hr) as H. unfold virt in H. by rewrite Hc in H. }
  revert c Hc. induction Hr as [|ls s l s' Hr IH Hs]; intros c Hc; [done|].
  assert (∀ t0 t3 i0, ls = t0 ++ t3 → (∀ E o, PEnd E o ∉ t3) → iexec (calls t0) i0 → i_m (p_i s) = i_m i0 →
    (∀ E o, l ≠ PEnd E o) → i_m (p_i s') = i_m (p_i s) →
    ∃ t0 t3 i0, ls ++ [l] = t0 ++ t3 ∧ (∀ E o, PEnd E o ∉ t3) ∧ iexec (calls t0) i0 ∧ i_m (p_i s') = i_m i0) as Hext.
  { intros t0 t3 i0 -> Hno Hx Hm Hl Hm'. exists t0, (t3 ++ [l]), i0. split_and!; [by rewrite <-app_assoc| |done|congruence].
    intros E o [?|?]%snoc_elem; [by eapply Hno|by eapply Hl]. }
  destruct Hs as [s E' o' i u' HE Hc' Hb|s E' o' u' Hc'|s E' o' i HE Hc' Ho1 Ho2 Hst|s f ev isdir cookie name r rs Hk Hrs|s rs Hro Hrs|s f i|s es q Hl Ho Hq|s k es j Hl Hj|s k es j Hj|s k e l j Hj|s k j Hj].
  all: cbn [p_call] in Hc; try done.
  2-9: destruct (IH _ Hc) as (t0&t3&i0&H1&H2&H3&H4); by apply (Hext t0 t3 i0).
  pose proof (virt_exec _ _ Hr) as Hx. unfold virt in Hx. rewrite Hc' in Hx.
  apply (Hext ls [] (p_i s)); try done; [by rewrite app_nil_r|intros ?? H; by apply elem_of_nil in H|].
  cbn. by apply begin_istep in Hb as [_ ->].
Qed.

(** ** A watch that stays *)
Definition entry (m : gmap Z watched) (wd : Z) (p : str) (x : N) : Prop :=
  ∃ e, m !! wd = Some (Wd p e) ∧ known e ∧ incl_ev x e.
Lemma keeps_snoc ls l p x : keeps (ls ++ [l]) p x → keeps ls p x.
Proof. intros H E o rs Hin. apply (H E o rs). apply snoc_elem. by left. Qed.
Lemma entry_kept l0 l1 s0 s wd p x :
  prun l0 s0 → psteps s0 l1 s → orderly (calls (l0 ++ l1)) → keeps l1 p x →
  entry (i_m (p_i s0)) wd p x ∧ entry (i_m (virt s0)) wd p x →
  entry (i_m (p_i s)) wd p x ∧ entry (i_m (virt s)) wd p x.
Proof.
  intros Hr0 Hr Hor Hk He. revert Hor Hk. induction Hr as [|l1 s l s' Hss IH Hs]; intros Hor Hk; [done|].
  pose proof (prun_psteps _ _ _ _ Hr0 Hss) as Hr.
  rewrite app_assoc in Hor. rewrite calls_app in Hor.
  destruct (IH (orderly_app _ _ Hor) (keeps_snoc _ _ _ _ Hk)) as [H1 H2].
  pose proof (virt_exec _ _ Hr) as Hx. pose proof (iexec_inv _ _ Hx) as Hiv.
  pose proof (iexec_orderly _ _ Hx (orderly_app _ _ Hor)) as Hov.
  destruct Hs as [s E' o' i u' HE Hc' Hb|s E' o' u' Hc'|s E' o' i HE Hc' Ho1 Ho2 Hst|s f ev isdir cookie name r rs Hkr Hrs|s rs Hro Hrs|s f i|s es q Hl Ho Hq|s k es j Hl Hj|s k es j Hj|s k e l j Hj|s k j Hj].
  all: unfold virt in *; cbn [p_call p_i] in *; try done.
  - rewrite Hc' in *. destruct (begin_istep _ _ _ _ _ Hb) as [Hst Hm]. split; [by rewrite Hm|].
    apply istep_change in Hst; [|done]. set (s1 := set_m i (mapply u' (i_m i))) in *.
    destruct H1 as (e&Hwd&Hkn&Hxe).
    assert (i_open (p_i s) = true) as Hop.
    { destruct (i_open (p_i s)) eqn:Eo; [done|]. destruct (iv_closed _ _ Hiv Eo) as [Hz _]. by rewrite Hz, lookup_empty in Hwd. }
    destruct (Hk E' o' (ignored_of (i_k (p_i s)) (i_k i))) as [Hk1 Hk2]; [apply snoc_elem; by right|].
    remember true as rr eqn:Err. remember (ie_ino E') as ino eqn:Ei. destruct Hst as [o r ino Hn1 Hn2 Hn3 Hn4|o ino q e' -> Ho|q e' ino wd' m s2 Hkq Hs2 Hwd'|q e' ino s2 Hkq Hs2 Hwd'|q wd' m ino Hwd'|r ino Ho|f r ino].
    + by exists e.
    + congruence.
    + rewrite Hop in Hs2. subst s2. cbn [i_m]. destruct (decide (wd' = wd)) as [->|Hne].
      * exists e'. rewrite lookup_insert. assert (q = p) as ->; [|split_and!; [done|done|by apply Hk2]].
        destruct (decide (q = p)) as [|Hqp]; [done|exfalso].
        destruct (ov_file _ _ Hov _ _ _ Hwd) as (f&lv&Hf&Hkf). rewrite Hwd' in Hkf. destruct lv; [|done]. injection Hkf as -> _.
        change (calls [_]) with [(E', IWatch q e', true)] in Hor.
        destruct (Hor (calls (l0 ++ l1)) E' q e' f [] eq_refl) as [_ Ho2]; [done|]. by apply (Ho2 p).
      * exists e. by rewrite lookup_insert_ne.
    + rewrite Hop in Hs2. subst s2. cbn [i_m]. exists e. rewrite lookup_insert_ne; [done|]. intros <-.
      pose proof (iv_next _ _ Hiv _ (mk_is_Some _ _ Hwd)). lia.
    + cbn [i_m]. exists e. rewrite lookup_delete_ne; [done|]. intros <-. assert (q = p) as -> by congruence. done.
    + by destruct (begin_istep _ _ _ _ _ Hb).
    + by destruct (begin_istep _ _ _ _ _ Hb).
  - rewrite Hc' in *. cbn in H2 |- *. done.
  - rewrite Hc' in *. apply istep_change in Hst; [|done]. remember false as rr eqn:Err. destruct Hst; try done.
    all: cbn [i_m]; try done. all: by destruct (Ho1 eq_refl).
  - destruct (p_call s) as [[[E o] u]|]; done.
Qed.

(** ** A watch that is withdrawn *)
Lemma itab_app_calls ls l : itab (calls (ls ++ [l])) = foldl tab_step (itab (calls ls)) (calls [l]).
Proof. rewrite calls_app. unfold itab. by rewrite foldl_app. Qed.
Lemma pending_itab ls s E p u : prun ls s → p_call s = Some (E, IUnwatch p, u) → itab (calls ls) !! p = None.
Proof.
  intros Hr. revert E u. induction Hr as [|ls s l s' Hr IH Hs]; intros E u Hc; [done|]. rewrite itab_app_calls.
  destruct Hs as [s E' o' i u' HE Hc' Hb|s E' o' u' Hc'|s E' o' i HE Hc' Ho1 Ho2 Hst|s f ev isdir cookie name r rs Hk Hrs|s rs Hro Hrs|s f i|s es q Hl Ho Hq|s k es j Hl Hj|s k es j Hj|s k e l j Hj|s k j Hj].
  all: cbn [p_call] in Hc; try done; try (by eapply IH).
  injection Hc as -> -> ->. cbn. by rewrite lookup_delete.
Qed.
Lemma itab_unwatched ls ls' p : itab (calls ls) !! p = None → (∀ E e rs, PBegin E (IWatch p e) rs ∉ ls') → itab (calls (ls ++ ls')) !! p = None.
Proof.
  intros H0. induction ls' as [|l ls' IH] using rev_ind; intros Hn; [by rewrite app_nil_r|].
  rewrite app_assoc, itab_app_calls.
  assert (itab (calls (ls ++ ls')) !! p = None) as H1 by (apply IH; intros E e rs Hin; apply (Hn E e rs), snoc_elem; by left).
  destruct l as [E o rs|E o|E o| | | | | | | |]; try exact H1; cbn.
  - destruct o as [q e|q| |f]; cbn; [|rewrite lookup_delete_None; by right|done|done].
    rewrite lookup_insert_ne; [done|]. intros ->. apply (Hn E e rs), snoc_elem. by right.
  - destruct o as [q e|q| |f]; done.
Qed.

(** ** The table is determined by the labels *)
Definition core (s : pst) := (p_i s, p_call s).
Lemma step_core s1 s2 l s1' s2' : core s1 = core s2 → pstep s1 l s1' → pstep s2 l s2' → core s1' = core s2'.
Proof.
  intros [= Hi Hc] H1 H2. unfold core.
  destruct H1 as [s E o i u HE Hc' Hb|s E o u Hc'|s E o i HE Hc' Ho1 Ho2 Hst|s f ev isdir cookie name r rs Hk Hrs|s rs Hro Hrs|s f i|s es q Hl Ho Hq|s k es j Hl Hj|s k es j Hj|s k e l j Hj|s k j Hj].
  all: inversion H2 as [| | | | |? ? i1| | | | |]; subst; cbn [p_i p_call]; try congruence.
  unfold i, i1. by rewrite Hi, Hc.
Qed.
Lemma run_core ls s s' : prun ls s → prun ls s' → core s = core s'.
Proof.
  intros H. revert s'. induction H as [|ls s l s1 Hr IH Hs]; intros s' H'.
  - inversion H' as [|ls ? ? ? ? ? Hn]; [done|by destruct ls].
  - apply prun_snoc in H' as (s0&H0&Hs0). eapply step_core; [by apply IH|done|done].
Qed.
Lemma batches_app l1 l2 : batches (l1 ++ l2) = batches l1 ++ batches l2.
Proof. unfold batches. by rewrite omap_app. Qed.
Lemma queued_app l1 l2 : queued (l1 ++ l2) = queued l1 ++ queued l2.
Proof. unfold queued. by rewrite flat_map_app. Qed.
