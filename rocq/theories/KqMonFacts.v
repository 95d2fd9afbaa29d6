(** * KqMonFacts: a path keeps its descriptor through everything that spares it. *)
From Verif Require Import Base Event Paths Clean Trigger SpecTrigger SpecTriggerFds TriggerFacts TriggerTab TriggerRun KqMon.
Local Open Scope N_scope.

Notation tinv := (tinv kq).
Section kept.
Context (ok0 : tw → Prop) (Hok : ∀ m e w, ok0 w → ok0 (add_role m e w)) (d0 : bool).
(** [q] is in the table as structure [i] with descriptor [fd], and the structure is [ok0]. *)
Definition keeps (s : tstate) (q : str) (i fd : nat) : Prop :=
  ts_path s !! q = Some i ∧ ∃ w, ts_heap s !! i = Some w ∧ tw_fd w = fd ∧ ok0 w ∧ tw_dir w = d0.
Lemma keeps_id s q i fd : tinv s → keeps s q i fd → ts_id s !! fd = Some i ∧ owner s fd = Some q.
Proof.
  intros Hi (Hp&w&Hw&<-&_). destruct (ti_path _ _ Hi q i Hp) as (x&Hx&Hxp&Hf). rewrite Hw in Hx. injection Hx as <-.
  destruct (Hf eq_refl) as [Hid _]. split; [done|]. unfold owner. rewrite Hid. cbn. rewrite Hw. cbn. by rewrite Hxp.
Qed.
Lemma owner_keeps s q fd w : tinv s → owner s fd = Some q → tw_at s q = Some w → ok0 w → tw_dir w = d0 → ∃ i, keeps s q i fd.
Proof.
  intros Hi H Hw He Hd. unfold owner in H. destruct (ts_id s !! fd) as [i|] eqn:E; [|done]. cbn in H.
  destruct (ti_id _ _ Hi _ _ E) as (_&x&Hx&Hf&Hp). rewrite Hx in H. injection H as <-. exists i. split; [done|]. exists x. split_and!; [done|done|..].
  all: unfold tw_at in Hw; rewrite Hp in Hw; cbn in Hw; rewrite Hx in Hw; by injection Hw as ->.
Qed.
Lemma keeps_same s s' q i fd : same_at kq s s' q → keeps s q i fd → keeps s' q i fd.
Proof.
  intros [H1 H2 _] (Hp&w&Hw&Hf). split; [congruence|]. exists w. split; [|done].
  unfold tw_at in H2. rewrite H1, Hp in H2. cbn in H2. congruence.
Qed.
Lemma add_role_dir m e w : tw_dir (add_role m e w) = tw_dir w.
Proof. by destruct m. Qed.
(** Watching never takes a descriptor away. *)
Lemma keeps_singlewatch s A p e m d s' r q i fd : tinv s → fresh_fd A → singlewatch kq s A p e m d = (s', r) → keeps s q i fd → keeps s' q i fd.
Proof.
  intros Hi HA H Hh. destruct (decide (p = q)) as [->|Hne]; [|eapply keeps_same; [by eapply (singlewatch_same kq)|done]].
  destruct Hh as (Hp&w&Hw&Hf). rewrite (singlewatch_known kq s A q e m d i w Hi Hp Hw) in H.
  destruct (a_watch A q); apply pair_equal_spec in H as [<- _]; (split; [exact Hp|]); exists (add_role m e w); cbn; (split; [apply lookup_insert|]; rewrite add_role_fd, add_role_dir; destruct Hf as (?&He&?); split_and!; [done|by apply Hok|done]).
Qed.
Lemma keeps_singleunwatch s A p m s' r q i fd : tinv s → singleunwatch kq s A p m = (s', r) → p ≠ q → keeps s q i fd → keeps s' q i fd.
Proof. intros Hi H Hne. eapply keeps_same. by eapply (singleunwatch_same kq). Qed.
Lemma keeps_walk_fold f s ls s' r q i fd : tinv s →
  (∀ s fi s' r, fi ∈ ls → tinv s → f s fi = (s', r) → tinv s' ∧ (keeps s q i fd → keeps s' q i fd)) →
  walk_fold f s ls = (s', r) → keeps s q i fd → tinv s' ∧ keeps s' q i fd.
Proof.
  revert s. induction ls as [|x ls IH]; intros s Hi Hf H Hh; cbn [walk_fold] in H; [by apply pair_equal_spec in H as [<- _]|].
  destruct (f s x) as [s1 r1] eqn:E. destruct (Hf s x s1 r1) as [H1 H2]; [by left|done|done|].
  destruct r1; [|apply pair_equal_spec in H as [<- _]; split; [done|by apply H2]..].
  apply (IH s1); [done| |done|by apply H2]. intros ? fi ? ? Hin. apply Hf. by right.
Qed.
Lemma keeps_watch s A p e d s' r q i fd : fresh_fd A → tinv s → trg_watch kq s A p e d = (s', r) → keeps s q i fd → keeps s' q i fd.
Proof.
  intros HA Hi H Hh. unfold trg_watch in H. destruct (singlewatch _ _ _ _ _ _ _) as [s1 r1] eqn:E.
  assert (tinv s1) as H1 by (by eapply (singlewatch_inv kq)). assert (keeps s1 q i fd) as Hh1 by (exact (keeps_singlewatch _ _ _ _ _ _ _ _ _ _ _ Hi HA E Hh)).
  assert ((if d then walk s1 A p (watch_entry kq A p e) else (s1, ROk)) = (s', r) → keeps s' q i fd) as K.
  { destruct d; [|intros [<- _]%pair_equal_spec; done]. unfold walk. destruct (a_ls A p) as [ls|]; [|intros [<- _]%pair_equal_spec; done].
    intros Hw. eapply keeps_walk_fold in Hw; [by apply Hw|done| |done]. clear - HA Hok. intros s fi s' r _ Hi H. split; [by eapply (watch_entry_inv kq)|].
    unfold watch_entry in H. destruct (singlewatch _ _ _ _ _ _ _) as [s1 r1] eqn:E. apply pair_equal_spec in H as [<- _]. exact (keeps_singlewatch _ _ _ _ _ _ _ _ _ _ _ Hi HA E). }
  destruct r1; first [by apply K | apply pair_equal_spec in H as [<- _]; done].
Qed.
Lemma keeps_unwatch s A p d s' r q i fd : tinv s → trg_unwatch kq s A p d = (s', r) →
  q ≠ p → (∀ ls fi, a_ls A p = Some ls → fi ∈ ls → q ≠ join p (fi_name fi)) → keeps s q i fd → keeps s' q i fd.
Proof.
  intros Hi H Hqp Hq Hh. unfold trg_unwatch in H.
  destruct (if d then walk s A p (unwatch_entry kq A p) else (s, ROk)) as [s1 r1] eqn:E.
  assert (tinv s1 ∧ keeps s1 q i fd) as [H1 K1].
  { destruct d; [|by apply pair_equal_spec in E as [<- _]]. unfold walk in E. destruct (a_ls A p) as [ls|] eqn:El; [|by apply pair_equal_spec in E as [<- _]].
    eapply keeps_walk_fold in E; [exact E|done| |done]. intros s2 fi s3 r3 Hin Hi2 H2. split; [by eapply (unwatch_entry_inv kq)|].
    unfold unwatch_entry in H2. destruct (singleunwatch kq s2 A (join p (fi_name fi)) MNDir) as [s4 r4] eqn:E4. apply pair_equal_spec in H2 as [<- _].
    eapply keeps_singleunwatch; [done|exact E4|]. intros Heq. by eapply (Hq ls fi). }
  destruct r1; [eapply keeps_singleunwatch; [exact H1|exact H| |done]; done|apply pair_equal_spec in H as [<- _]; done..].
Qed.
Lemma keeps_moved A w e ord s evn s' evn' q i fd : tinv s → foldl (dir_moved1 kq A w e) (s, evn) ord = (s', evn') →
  has_prefix (tw_p w ++ [slash]) q = false → keeps s q i fd → keeps s' q i fd.
Proof.
  intros Hi H Hq. revert s evn Hi H. induction ord as [|k ord IH]; intros s evn Hi H Hh; cbn [foldl] in H; [by apply pair_equal_spec in H as [<- _]|].
  destruct (dir_moved1 kq A w e (s, evn) k) as [s1 evn1] eqn:E. pose proof (moved1_inv _ _ _ _ _ _ _ _ _ Hi E) as H1.
  eapply IH; [exact H1|exact H|]. unfold dir_moved1 in E. destruct (has_prefix _ k) eqn:Hk; [|by apply pair_equal_spec in E as [<- _]].
  apply pair_equal_spec in E as [<- _]. destruct (singleunwatch kq s A k MBoth) as [s2 r2] eqn:E2.
  cbn [fst]. eapply keeps_singleunwatch; [exact Hi|exact E2| |exact Hh]. intros ->. by rewrite Hk in Hq.
Qed.
Lemma keeps_rescan A w ls s evn s' evn' q i fd : fresh_fd A → tinv s → foldl (rescan1 kq A w) (s, evn) ls = (s', evn') → keeps s q i fd → keeps s' q i fd.
Proof.
  intros HA. revert s evn. induction ls as [|fi ls IH]; intros s evn Hi H Hh; cbn [foldl] in H; [by apply pair_equal_spec in H as [<- _]|].
  destruct (rescan1 kq A w (s, evn) fi) as [s1 evn1] eqn:E. eapply IH; [by eapply (rescan1_inv kq)|exact H|].
  unfold rescan1 in E. destruct (singlewatch kq s A _ _ _ _) as [s2 r2] eqn:E2. apply pair_equal_spec in E as [<- _]. exact (keeps_singlewatch _ _ _ _ _ _ _ _ _ _ _ Hi HA E2 Hh).
Qed.
Lemma keeps_del s p i w q j fd : tinv s → ts_path s !! p = Some i → ts_heap s !! i = Some w → p ≠ q → keeps s q j fd → keeps (t_Del kq s i) q j fd.
Proof. intros Hi Hp Hw Hne. eapply keeps_same. by eapply (same_del kq). Qed.
(** A second removal from the table changes nothing for others. *)
Lemma keeps_del_again s i w q j fd : ts_heap s !! i = Some w → tw_p w ≠ q → keeps s q j fd → keeps (t_Del kq s i) q j fd.
Proof.
  intros Hw Hne (Hp&x&Hx&Hf). unfold t_Del. rewrite Hw. cbn. split; cbn; [by rewrite lookup_delete_ne|]. by exists x.
Qed.
Lemma keeps_process s st A ord fd0 ge s' evn q i fd : fresh_fd A → tinv s → trg_process kq s st A ord (inl fd0) ge = (s', evn) →
  spares (KProc (owner s fd0) (TEvent st A ord (inl fd0) ge evn)) q → keeps s q i fd → keeps s' q i fd.
Proof.
  intros HA Hi H Hsp Hh. unfold trg_process in H. cbn [t_fds kq] in H.
  destruct (t_Watched kq s (inl fd0)) as [j|] eqn:Hk; [|by apply pair_equal_spec in H as [<- _]].
  assert (keeps s q i fd → ts_path s !! q = Some i) as _ by (by intros [? _]).
  destruct (Watched_path kq s (inl fd0) j Hi Hk) as (w&Hw&Hp&Hid). rewrite Hw in H. cbv zeta in H.
  assert (owner s fd0 = Some (tw_p w)) as Ho.
  { unfold owner. cbn in Hk. rewrite Hk. cbn. by rewrite Hw. }
  rewrite Ho in Hsp. cbn [spares] in Hsp. destruct Hsp as [Hsp1 Hsp2].
  destruct (ge .& native_gone kq =? 0) eqn:Hg; cbn [negb] in H.
  - match type of H with (if _ then (?x, _) else _) = _ => set (s1 := x) in * end.
    assert (tinv s1 ∧ keeps s1 q i fd) as [H1 Hh1].
    { unfold s1. destruct st as [d|]; [|done]. destruct (t_Watch kq s A j _) as [s2 r2] eqn:E.
      destruct (watch_call_inv kq _ _ _ _ _ _ _ Hi Hw E) as (H2&H3&H4&H5).
      assert (keeps s2 q i fd) as Hh2 by (unfold keeps; by rewrite H3, H4).
      assert (r2 = ROk ∨ keeps (t_Del kq s2 j) q i fd) as Hr.
      { destruct (decide (tw_p w = q)) as [Heq|Hne].
        - left. destruct (Hsp1 Heq) as [_ [?|Ha]]; [done|]. unfold t_Watch in E. rewrite Hw, Heq, Ha in E.
          assert (live kq s w = true) as Hl by (by eapply (live_inv kq)). rewrite Hl in E. by apply pair_equal_spec in E as [_ <-].
        - right. eapply keeps_del; [done|by rewrite H3|by rewrite H4|done|done]. }
      assert (tinv (t_Del kq s2 j)) by (eapply (del_inv kq); [done|by rewrite H3|by rewrite H4]).
      destruct r2; [done|destruct Hr; [done|by split]..]. }
    clearbody s1. destruct ((_ =? 0) && _); [by apply pair_equal_spec in H as [<- _]|].
    destruct (tw_dir w); [|by apply pair_equal_spec in H as [<- _]].
    destruct (trg_dir kq s1 A ord j w _ ge) as [s2 evn2] eqn:E. apply pair_equal_spec in H as [<- _].
    unfold trg_dir in E. rewrite Hg in E. cbn [negb] in E. destruct (nonzero (ge .& t_write kq)); [|by apply pair_equal_spec in E as [<- _]].
    destruct (a_ls A (tw_p w)); [by eapply keeps_rescan|]. by apply pair_equal_spec in E as [<- _].
  - assert (tw_p w ≠ q) as Hne.
    { intros Heq. destruct (Hsp1 Heq) as [Hz _]. by apply N.eqb_neq in Hg. }
    destruct ((_ =? 0) && _); [by apply pair_equal_spec in H as [<- _]|].
    destruct (tw_dir w).
    + destruct (trg_dir kq s A ord j w _ ge) as [s2 evn2] eqn:E. apply pair_equal_spec in H as [<- _].
      unfold trg_dir in E. rewrite Hg in E. cbn [negb] in E.
      destruct (if nonzero (ge .& t_rename kq) then _ else _) as [s3 evn3] eqn:E3. apply pair_equal_spec in E as [<- _].
      assert (tinv s3 ∧ same_at kq s s3 (tw_p w) ∧ keeps s3 q i fd) as (H3&H4&Hh3).
      { destruct (nonzero (ge .& t_rename kq)).
        - destruct (moved_inv kq _ _ _ _ _ _ _ _ Hi E3). split_and!; [done|done|]. eapply keeps_moved; [exact Hi|exact E3|by apply Hsp2|done].
        - apply pair_equal_spec in E3 as [<- _]. split_and!; [done|apply same_refl|done]. }
      pose proof (sa_path _ _ _ _ H4) as Hp3. rewrite Hp in Hp3.
      pose proof (sa_tw _ _ _ _ H4) as Hw3. unfold tw_at in Hw3. rewrite Hp, Hp3 in Hw3. cbn in Hw3. rewrite Hw in Hw3.
      destruct (del_gone kq s3 j w Hw3) as (G1&G2&G3).
      eapply keeps_del_again; [by rewrite G3|done|]. by eapply keeps_del.
    + apply pair_equal_spec in H as [<- _]. by eapply keeps_del.
Qed.

End kept.
(** For at least [e0], all in all or directly *)
Lemma add_role_e m e w : incl_ev (tw_e w) (tw_e (add_role m e w)).
Proof. unfold tw_e. destruct m; cbn [add_role tw_eDir tw_eNonDir]; bits. Qed.
Lemma add_role_eDir m e w : incl_ev (tw_eDir w) (tw_eDir (add_role m e w)).
Proof. destruct m; cbn [add_role tw_eDir tw_eNonDir]; bits. Qed.
Notation holds e0 d0 := (keeps (λ w, incl_ev e0 (tw_e w)) d0).
Lemma holds_ok e0 m e w : incl_ev e0 (tw_e w) → incl_ev e0 (tw_e (add_role m e w)).
Proof. intros H k Hk. by apply add_role_e, H. Qed.
Lemma holds_id e0 d0 s q i fd : tinv s → holds e0 d0 s q i fd → ts_id s !! fd = Some i ∧ owner s fd = Some q.
Proof. apply keeps_id. Qed.
Lemma owner_holds e0 d0 s q fd w : tinv s → owner s fd = Some q → tw_at s q = Some w → incl_ev e0 (tw_e w) → tw_dir w = d0 → ∃ i, holds e0 d0 s q i fd.
Proof. intros Hi H Hw He. by eapply (owner_keeps (λ w, incl_ev e0 (tw_e w))). Qed.

(** ** Runs *)
Definition watcher_of (l : klab) : list tlabel := match l with KCall l | KProc _ l => [l] | _ => [] end.
Lemma krun_texec ls s : krun ls s → texec kq (mbind watcher_of ls) (k_t s).
Proof.
  induction 1 as [|ls s l s' _ IH Hs]; [constructor|]. rewrite bind_app. cbn [mbind list_bind].
  destruct Hs; cbn [watcher_of app k_t] in *; rewrite ?app_nil_r; try done; by eapply texec_step.
Qed.
Lemma krun_inv ls s : krun ls s → tinv (k_t s).
Proof. intros H%krun_texec. by eapply (texec_inv kq). Qed.
Lemma kstep_keeps (P0 : tw → Prop) d0 s l s' q i fd : (∀ m e w, P0 w → P0 (add_role m e w)) → tinv (k_t s) → kstep s l s' → spares l q → keeps P0 d0 (k_t s) q i fd → keeps P0 d0 (k_t s') q i fd.
Proof.
  intros Hok Hi H Hsp Hh. destruct H as [t pend mon l t' pend' Hc Hl Ht Hn|t pend mon fd' ge q' m Ho Hr Hg Hm|t pend fd' ge Hp|t pend fd' ge st A ord evn t' pend' l Hl Ht Hn]; cbn [k_t] in *; try done.
  - destruct Ht as [st A p e s' r H|st A p s' r H|st A A' p e s' r H|st A ord k ge s' evn Ho H]; cbn in Hl, Hsp.
    + unfold trg_Watch in H. destruct st; [|by apply pair_equal_spec in H as [<- _]]. by eapply keeps_watch.
    + unfold trg_Unwatch in H. destruct st; [|by apply pair_equal_spec in H as [<- _]]. destruct Hsp. by eapply keeps_unwatch.
    + unfold trg_Rewatch in H. destruct st as [d|]; [|by apply pair_equal_spec in H as [<- _]]. destruct Hl as [_ Hl], Hsp as [Hq1 Hq2].
      destruct (trg_unwatch kq t A p d) as [s1 r1] eqn:E. assert (tinv s1) as Hi1 by (by eapply (trg_unwatch_inv kq)).
      assert (keeps P0 d0 s1 q i fd) as Hh1 by (exact (keeps_unwatch _ _ _ _ _ _ _ _ _ _ _ Hi E Hq1 Hq2 Hh)).
      destruct r1; [|by apply pair_equal_spec in H as [<- _]..]. apply pair_equal_spec in H as [<- _].
      destruct (trg_watch kq s1 A' p e d) as [s2 r2] eqn:E2. exact (keeps_watch _ Hok _ _ _ _ _ _ _ _ _ _ _ Hl Hi1 E2 Hh1).
    + done.
  - inversion Ht as [| | |? ? ? ? ? ? ? Ho H]; subst. exact (keeps_process _ Hok _ _ _ _ _ _ _ _ _ _ _ _ Hl Hi H Hsp Hh).
Qed.
Lemma kstep_holds e0 d0 s l s' q i fd : tinv (k_t s) → kstep s l s' → spares l q → holds e0 d0 (k_t s) q i fd → holds e0 d0 (k_t s') q i fd.
Proof. apply kstep_keeps, holds_ok. Qed.
(** What becomes of a note on [q]'s descriptor. *)
Definition known_note (e0 : N) (d0 : bool) (s : kst) (q : str) (i fd : nat) (ge : N) : Prop :=
  holds e0 d0 (k_t s) q i fd ∧ ∃ g, incl_ev ge g ∧ (k_pend s !! fd = Some g ∨ k_mon s = Some (fd, g)).
Lemma kstep_note e0 d0 s l s' q i fd ge : tinv (k_t s) → kstep s l s' → spares l q → known_note e0 d0 s q i fd ge →
  known_note e0 d0 s' q i fd ge ∨ ∃ st A ord g evn, l = KProc (Some q) (TEvent st A ord (inl fd) g evn) ∧ incl_ev ge g ∧ holds e0 d0 (k_t s) q i fd.
Proof.
  intros Hi Hs Hsp [Hh (g&Hg&Hgs)]. pose proof (kstep_holds _ _ _ _ _ _ _ _ Hi Hs Hsp Hh) as Hh'. destruct (holds_id _ _ _ _ _ _ Hi Hh) as [Hid How].
  destruct Hs as [t pend mon l t' pend' Hc Hl Ht Hn|t pend mon fd' ge' q' m Ho Hr Hg' Hm|t pend fd' ge' Hp|t pend fd' ge' st A ord evn t' pend' l Hl Ht Hn]; cbn [k_t k_pend k_mon] in *.
  - left. split; [done|]. exists g. split; [done|]. cbn. destruct Hgs as [Hgs|?]; [left|by right]. destruct (Hn fd) as (_&_&Hk). by rewrite (Hk q How Hsp).
  - left. split; [done|]. cbn. destruct (decide (fd' = fd)) as [->|Hne].
    + destruct Hgs as [Hgs|Hgs]; [|exists g; by auto]. exists (default 0 (pend !! fd) .| ge'). rewrite Hgs. cbn. split; [clear - Hg; bits|left; by rewrite lookup_insert].
    + exists g. split; [done|]. by rewrite lookup_insert_ne.
  - left. split; [done|]. exists g. split; [done|]. cbn. destruct Hgs as [Hgs|?]; [|done]. destruct (decide (fd' = fd)) as [->|Hne].
    + right. congruence.
    + left. by rewrite lookup_delete_ne.
  - destruct Hgs as [Hgs|Hgs].
    + left. split; [done|]. exists g. split; [done|]. left. cbn. destruct (Hn fd) as (_&_&Hk). by rewrite (Hk q How Hsp).
    + injection Hgs as -> ->. right. rewrite How. unfold l. by eexists _, _, _, _, _.
Qed.
Lemma kruns_snoc s1 ls l s : kruns s1 (ls ++ [l]) s → ∃ s0, kruns s1 ls s0 ∧ kstep s0 l s.
Proof.
  revert s1. induction ls as [|x ls IH]; intros s1 H; cbn [app] in H; inversion H as [|? ? s2 ? ? Hs H2]; subst.
  - inversion H2; subst. exists s1. split; [constructor|done].
  - apply IH in H2 as (s0&H0&Hl). exists s0. split; [by econstructor|done].
Qed.
Lemma kruns_krun l1 s1 l2 s : krun l1 s1 → kruns s1 l2 s → krun (l1 ++ l2) s.
Proof.
  intros H1 H. revert l1 H1. induction H as [|s l s' ls s'' Hs _ IH]; intros l1 H1; [by rewrite app_nil_r|].
  replace (l1 ++ l :: ls) with ((l1 ++ [l]) ++ ls) by (by rewrite <-app_assoc). apply IH. by econstructor.
Qed.
(** The request that stands for [q] at the time of the note is [e0] or more. *)
Lemma note_followed e0 d0 l1 fd ge q l2 s1 w s : krun l1 s1 → tw_at (k_t s1) q = Some w → incl_ev e0 (tw_e w) → tw_dir w = d0 →
  kruns s1 (KNote fd ge q :: l2) s → (∀ l, l ∈ l2 → spares l q) →
  (∃ i, known_note e0 d0 s q i fd ge) ∨
  ∃ u st A ord g evn v s0 i t', l2 = u ++ KProc (Some q) (TEvent st A ord (inl fd) g evn) :: v ∧ incl_ev ge g ∧
    krun (l1 ++ KNote fd ge q :: u) s0 ∧ holds e0 d0 (k_t s0) q i fd ∧ label_ok (TEvent st A ord (inl fd) g evn) ∧ tstep kq (k_t s0) (TEvent st A ord (inl fd) g evn) t'.
Proof.
  intros H1 Hw He Hd H Hsp. revert s H. induction l2 as [|l l2 IH] using rev_ind; intros s H.
  - inversion H as [|? ? s2 ? ? Hs H2]; subst. inversion H2; subst. left. pose proof (krun_inv _ _ H1) as Hi.
    inversion Hs as [|t pend mon fd' ge' q' m Ho Hr Hg Hm| |]; subst. cbn in Hi, Hw. destruct (owner_holds e0 (tw_dir w) _ _ _ _ Hi Ho Hw He eq_refl) as [i Hh]. exists i. split; [done|].
    exists (default 0 (pend !! fd) .| ge). split; [bits|left; apply lookup_insert].
  - rewrite app_comm_cons in H. apply kruns_snoc in H as (s0&H0&Hs). pose proof (kruns_krun _ _ _ _ H1 H0) as H0'. pose proof (krun_inv _ _ H0') as Hi.
    destruct (IH (λ l' Hin, Hsp l' (proj2 (elem_of_app _ _ _) (or_introl Hin))) s0 H0) as [[i Hn]|(u&st&A&ord&g&evn&v&K)].
    + destruct (kstep_note _ _ _ _ _ _ _ _ _ Hi Hs (Hsp l ltac:(apply elem_of_app; right; by left)) Hn) as [Hn'|(st&A&ord&g&evn&->&Hg&How)]; [left; by exists i|].
      right. inversion Hs; subst. eexists l2, st, A, ord, g, evn, [], (KS t pend (Some (fd, g))), i, t'. split_and!; done.
    + right. destruct K as (s2&i&t'&->&K). exists u, st, A, ord, g, evn, (v ++ [l]), s2, i, t'. split; [by rewrite <-app_assoc|]. done.
Qed.
(** The processing of a file's note. *)
Lemma process_file s st A ord fd g evn t' e0 q i : tinv s → holds e0 false s q i fd → tstep kq s (TEvent st A ord (inl fd) g evn) t' →
  ∃ w, tw_at s q = Some w ∧ tw_fd w = fd ∧ incl_ev e0 (tw_e w) ∧
    evn = if decide (decode kq_nat2not g (tw_e w) = 0) then [] else [TE q (decode kq_nat2not g (tw_e w)) false].
Proof.
  intros Hi Hh Hs. destruct (holds_id _ _ _ _ _ _ Hi Hh) as [Hid _]. destruct Hh as (Hp&w&Hw&Hf&He&Hd).
  destruct (ti_path _ _ Hi q i Hp) as (x&Hx&Hxp&_). rewrite Hw in Hx. injection Hx as <-.
  exists w. split_and!; [unfold tw_at; rewrite Hp; cbn; done|done|done|].
  inversion Hs as [| | |? ? ? ? ? ? ? Ho H]; subst. unfold trg_process in H. cbn [t_fds kq t_Watched] in H.
  unfold t_Watched in H. cbn [t_fds kq] in H. rewrite Hid, Hw, Hd in H. cbv zeta in H. cbn [negb orb t_nat2not kq] in H. rewrite andb_true_r in H.
  destruct (decode kq_nat2not g (tw_e w) =? 0) eqn:E; apply pair_equal_spec in H as [_ <-].
  - apply N.eqb_eq in E. by rewrite decide_True.
  - apply N.eqb_neq in E. by rewrite decide_False.
Qed.
(** ** Where a note came from *)
Lemma owner_at s q fd : tinv s → owner s fd = Some q → ∃ w, tw_at s q = Some w ∧ tw_fd w = fd ∧ tw_p w = q.
Proof.
  intros Hi H. unfold owner in H. destruct (ts_id s !! fd) as [i|] eqn:E; [|done]. cbn in H.
  destruct (ti_id _ _ Hi _ _ E) as (_&w&Hw&Hf&Hp). rewrite Hw in H. injection H as <-. exists w. split_and!; [|done|done]. unfold tw_at. by rewrite Hp.
Qed.
Lemma kstep_owner s l s' q fd : tinv (k_t s) → tinv (k_t s') → kstep s l s' → spares l q → owner (k_t s) fd = Some q → owner (k_t s') fd = Some q.
Proof.
  intros Hi Hi' Hs Hsp Ho. destruct (owner_at _ _ _ Hi Ho) as (w&Hw&Hf&_).
  destruct (owner_holds 0 (tw_dir w) _ _ _ _ Hi Ho Hw ltac:(intros j Hj; unfold has in Hj; by rewrite N.bits_0 in Hj) eq_refl) as [i Hh].
  eapply holds_id; [exact Hi'|]. exact (kstep_holds _ _ _ _ _ _ _ _ Hi Hs Hsp Hh).
Qed.
Definition came (ls : list klab) (t : tstate) (fd : nat) (i : N) : Prop :=
  ∃ u1 ge q u2, ls = u1 ++ KNote fd ge q :: u2 ∧ has ge i ∧ (owner t fd = Some q ∨ ∃ l, l ∈ u2 ∧ ¬ spares l q).
Lemma krun_came ls s fd g i : krun ls s → (k_pend s !! fd = Some g ∨ k_mon s = Some (fd, g)) → has g i → came ls (k_t s) fd i.
Proof.
  intros H. revert fd g. induction H as [|ls s l s' H IH Hs]; intros fd g Hg Hgi; [cbn [kinit k_pend k_mon] in Hg; rewrite lookup_empty in Hg; by destruct Hg|].
  assert (∀ g0, (k_pend s !! fd = Some g0 ∨ k_mon s = Some (fd, g0)) → has g0 i → came (ls ++ [l]) (k_t s') fd i) as K.
  { intros g0 H1 H2. destruct (IH _ _ H1 H2) as (u1&ge&q&u2&->&Hge&Hq). exists u1, ge, q, (u2 ++ [l]). split; [by rewrite <-app_assoc|]. split; [done|].
    destruct Hq as [Hq|(l'&Hl&Hn)]; [|right; exists l'; split; [apply elem_of_app; by left|done]].
    destruct (decide (owner (k_t s') fd = Some q)) as [|Hne]; [by left|]. right. exists l. split; [apply elem_of_app; right; by left|].
    intros Hsp. apply Hne. eapply kstep_owner; [by eapply krun_inv|eapply krun_inv; by econstructor|done|done|done]. }
  destruct Hs as [t pend mon l t' pend' Hc Hl Ht Hn|t pend mon fd' ge q m Ho Hr Hge Hm|t pend fd' ge Hp|t pend fd' ge st A ord evn t' pend' l Hl Ht Hn]; cbn [k_t k_pend k_mon] in *.
  - apply (K g); [|done]. destruct Hg as [Hg|?]; [left|by right]. destruct (Hn fd) as ([E|E]&_); congruence.
  - destruct Hg as [Hg|Hg]; [|apply (K g); [by right|done]]. destruct (decide (fd' = fd)) as [->|Hne].
    + rewrite lookup_insert in Hg. injection Hg as <-. apply has_lor in Hgi as [Hi|Hi].
      * destruct (pend !! fd) as [g0|] eqn:E; cbn in Hi; [apply (K g0); [by left|done]|]. unfold has in Hi. by rewrite N.bits_0 in Hi.
      * exists ls, ge, q, []. split_and!; [done|done|by left].
    + rewrite lookup_insert_ne in Hg by done. apply (K g); [by left|done].
  - apply (K g); [|done]. left. destruct Hg as [Hg|Hg]; [by apply lookup_delete_Some in Hg as [_ ?]|congruence].
  - apply (K g); [|done]. destruct Hg as [Hg|?]; [left|done]. destruct (Hn fd) as ([E|E]&_); congruence.
Qed.
Lemma krun_elem u l v s : krun (u ++ l :: v) s → ∃ s0 s1, krun u s0 ∧ kstep s0 l s1.
Proof.
  revert s. induction v as [|x v IH] using rev_ind; intros s H.
  - remember (u ++ [l]) as ls' eqn:E. destruct H as [|ls s l' s' H Hs]; [by destruct u|]. apply app_inj_tail in E as [-> ->]. by exists s, s'.
  - rewrite app_comm_cons, app_assoc in H. remember ((u ++ l :: v) ++ [x]) as ls' eqn:E. destruct H as [|ls s l' s' H Hs]; [by destruct u|].
    apply app_inj_tail in E as [-> _]. by eapply IH.
Qed.
(** ** How many *)
Lemma notes_size l s s' pend pend' : notes_after l s s' pend pend' → (size pend' ≤ size pend)%nat.
Proof.
  intros H. rewrite <-!(size_dom (D := gset nat)). apply subseteq_size. intros fd. rewrite !elem_of_dom. intros [g Hg].
  destruct (H fd) as ([E|E]&_); [|congruence]. exists g. congruence.
Qed.
Lemma krun_count ls s : krun ls s →
  (length (filter (λ l, is_proc l = true) ls) + size (k_pend s) + (if k_mon s then 1 else 0) ≤ length (filter (λ l, is_note l = true) ls))%nat.
Proof.
  induction 1 as [|ls s l s' H IH Hs]; [done|]. rewrite !filter_app, !app_length.
  destruct Hs as [t pend mon l t' pend' Hc Hl Ht Hn|t pend mon fd' ge q m Ho Hr Hge Hm|t pend fd' ge Hp|t pend fd' ge st A ord evn t' pend' l Hl Ht Hn]; cbn [k_t k_pend k_mon] in *;
    rewrite !filter_cons, !filter_nil; cbn [is_note is_proc]; repeat (case_decide; try done); cbn [length].
  - apply notes_size in Hn. lia.
  - assert (∀ x, size (<[fd' := x]> pend) ≤ S (size pend))%nat as Hx; [|specialize (Hx (default 0 (pend !! fd') .| ge)); lia]. intros x.
    destruct (pend !! fd') as [g|] eqn:E; [rewrite map_size_insert_Some by done; lia|rewrite map_size_insert_None by done; lia].
  - rewrite map_size_delete_Some by done. assert (size pend ≠ 0%nat) by (apply map_size_non_empty_iff; intros ->; by rewrite lookup_empty in Hp). lia.
  - apply notes_size in Hn. lia.
Qed.
