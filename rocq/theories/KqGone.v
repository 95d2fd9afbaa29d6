(** * KqGone: the note that says a path is gone is processed before the path is given up. *)
From Verif Require Import Base Event Paths Clean Trigger SpecTrigger SpecTriggerFds TriggerFacts TriggerTab TriggerRun KqMon KqMonFacts.
Local Open Scope N_scope.

(** What is processed is the removal or renaming of [q] itself
    (/repo/watcher_trigger.go:310-332,449-451). *)
Definition gives_up (l : klab) (q : str) : Prop := ∃ st A ord k g evn, l = KProc (Some q) (TEvent st A ord k g evn) ∧ g .& native_gone kq ≠ 0.
(** Nothing that waits for [fd] says that. *)
Definition none_gone (s : kst) (fd : nat) : Prop := ∀ g, k_pend s !! fd = Some g ∨ k_mon s = Some (fd, g) → g .& native_gone kq = 0.

(** The note [ge] on the descriptor of [q] comes before everything that gives [q] up. *)
Definition ahead (e0 : N) (d0 : bool) (s : kst) (q : str) (i fd : nat) (ge : N) : Prop :=
  holds e0 d0 (k_t s) q i fd ∧
  ((∃ g, k_mon s = Some (fd, g) ∧ incl_ev ge g) ∨
   (∃ g, k_pend s !! fd = Some g ∧ incl_ev ge g) ∧ ∀ g, k_mon s = Some (fd, g) → g .& native_gone kq = 0).
Lemma owner_inj s q fd fd' : tinv s → owner s fd = Some q → owner s fd' = Some q → fd = fd'.
Proof.
  intros Hi H1 H2. destruct (owner_at _ _ _ Hi H1) as (w&Hw&<-&_). destruct (owner_at _ _ _ Hi H2) as (w'&Hw'&<-&_). congruence.
Qed.
Lemma kstep_ahead e0 d0 s l s' q i fd ge : tinv (k_t s) → kstep s l s' → spares l q ∨ gives_up l q → ahead e0 d0 s q i fd ge →
  ahead e0 d0 s' q i fd ge ∨ ∃ st A ord g evn, l = KProc (Some q) (TEvent st A ord (inl fd) g evn) ∧ incl_ev ge g ∧ holds e0 d0 (k_t s) q i fd.
Proof.
  intros Hi Hs Hsg [Hh Hn]. destruct (holds_id _ _ _ _ _ _ Hi Hh) as [_ How].
  assert (spares l q → holds e0 d0 (k_t s') q i fd) as Hh' by (intros Hsp; exact (kstep_holds _ _ _ _ _ _ _ _ Hi Hs Hsp Hh)).
  destruct Hs as [t pend mon l t' pend' Hc Hl Ht Hna|t pend mon fd' ge' q' m Ho Hr Hg' Hm|t pend fd' ge' Hp|t pend fd' ge' st A ord evn t' pend' l Hl Ht Hna]; cbn [k_t k_pend k_mon] in *.
  - destruct Hsg as [Hsp|(?&?&?&?&?&?&[=]&_)]. left. split; [by apply Hh'|]. cbn.
    destruct Hn as [Hn|[(g&Hg&Hge) Hm]]; [by left|right]. split; [|done]. exists g. split; [|done]. destruct (Hna fd) as (_&_&Hk). by rewrite (Hk q How Hsp).
  - destruct Hsg as [Hsp|(?&?&?&?&?&?&[=]&_)]. left. split; [by apply Hh'|]. cbn.
    destruct Hn as [Hn|[(g&Hg&Hge) Hm']]; [by left|right]. split; [|done]. destruct (decide (fd' = fd)) as [->|Hne].
    + exists (default 0 (pend !! fd) .| ge'). rewrite Hg. cbn. split; [by rewrite lookup_insert|clear - Hge; bits].
    + exists g. by rewrite lookup_insert_ne.
  - destruct Hsg as [Hsp|(?&?&?&?&?&?&[=]&_)]. left. split; [by apply Hh'|]. cbn.
    destruct Hn as [(g&Hg&_)|[(g&Hg&Hge) _]]; [done|]. destruct (decide (fd' = fd)) as [->|Hne].
    + left. exists ge'. split; [done|]. rewrite Hp in Hg. by injection Hg as ->.
    + right. split; [exists g; by rewrite lookup_delete_ne|]. intros g' [= ? _]. done.
  - destruct Hn as [(g&[= -> ->]&Hge)|[(g&Hg&Hge) Hm]].
    { right. rewrite How. by exists st, A, ord, g, evn. }
    assert (spares (KProc (owner t fd') l) q) as Hsp.
    { destruct Hsg as [|(st'&A'&ord'&k'&g'&evn'&Heq&Hgo)]; [done|]. exfalso. unfold l in Heq. injection Heq as Ho <- <- <- <- <- <-.
      pose proof (owner_inj _ _ _ _ Hi How Ho) as <-. by apply Hgo, Hm. }
    left. split; [by apply Hh'|]. right. cbn. split; [|done]. exists g. split; [|done]. destruct (Hna fd) as (_&_&Hk). by rewrite (Hk q How Hsp).
Qed.
Lemma note_first e0 d0 l1 fd ge q l2 s1 w s : krun l1 s1 → tw_at (k_t s1) q = Some w → incl_ev e0 (tw_e w) → tw_dir w = d0 → none_gone s1 fd →
  kruns s1 (KNote fd ge q :: l2) s → (∀ l, l ∈ l2 → spares l q ∨ gives_up l q) →
  (∃ i, ahead e0 d0 s q i fd ge) ∨
  ∃ u st A ord g evn v s0 i t', l2 = u ++ KProc (Some q) (TEvent st A ord (inl fd) g evn) :: v ∧ incl_ev ge g ∧
    krun (l1 ++ KNote fd ge q :: u) s0 ∧ holds e0 d0 (k_t s0) q i fd ∧ tstep kq (k_t s0) (TEvent st A ord (inl fd) g evn) t'.
Proof.
  intros H1 Hw He Hd Hno H Hsp. revert s H. induction l2 as [|l l2 IH] using rev_ind; intros s H.
  - inversion H as [|? ? s2 ? ? Hs H2]; subst. inversion H2; subst. left. pose proof (krun_inv _ _ H1) as Hi.
    inversion Hs as [|t pend mon fd' ge' q' m Ho Hr Hg Hm| |]; subst. cbn in Hi, Hw. destruct (owner_holds e0 (tw_dir w) _ _ _ _ Hi Ho Hw He eq_refl) as [i Hh]. exists i. split; [done|].
    right. cbn. split; [|intros g Hg'; apply Hno; by right]. exists (default 0 (pend !! fd) .| ge). split; [apply lookup_insert|bits].
  - rewrite app_comm_cons in H. apply kruns_snoc in H as (s0&H0&Hs). pose proof (kruns_krun _ _ _ _ H1 H0) as H0'. pose proof (krun_inv _ _ H0') as Hi.
    destruct (IH (λ l' Hin, Hsp l' (proj2 (elem_of_app _ _ _) (or_introl Hin))) s0 H0) as [[i Hn]|(u&st&A&ord&g&evn&v&K)].
    + destruct (kstep_ahead _ _ _ _ _ _ _ _ _ Hi Hs (Hsp l ltac:(apply elem_of_app; right; by left)) Hn) as [Hn'|(st&A&ord&g&evn&->&Hg&How)]; [left; by exists i|].
      right. inversion Hs; subst. eexists l2, st, A, ord, g, evn, [], (KS t pend (Some (fd, g))), i, t'. split_and!; done.
    + right. destruct K as (s2&i&t'&->&K). exists u, st, A, ord, g, evn, (v ++ [l]), s2, i, t'. split; [by rewrite <-app_assoc|]. done.
Qed.
(** The processing of a directory's removal or renaming: what is said about the directory. *)
Lemma moved_keeps A w e ord s evn s' evn' z : foldl (dir_moved1 kq A w e) (s, evn) ord = (s', evn') → z ∈ evn → z ∈ evn'.
Proof.
  revert s evn. induction ord as [|k ord IH]; intros s evn H Hz; cbn [foldl] in H; [by apply pair_equal_spec in H as [_ <-]|].
  destruct (dir_moved1 kq A w e (s, evn) k) as [s1 evn1] eqn:E. eapply IH; [exact H|]. unfold dir_moved1 in E.
  destruct (has_prefix _ k); [|by apply pair_equal_spec in E as [_ <-]]. apply pair_equal_spec in E as [_ <-].
  destruct (nonzero _); [apply elem_of_app; by left|done].
Qed.
Lemma process_dir_gone s st A ord fd g evn t' e0 q i : tinv s → holds e0 true s q i fd → g .& native_gone kq ≠ 0 → tstep kq s (TEvent st A ord (inl fd) g evn) t' →
  ∃ w, tw_at s q = Some w ∧ incl_ev e0 (tw_e w) ∧
    (decode kq_nat2not g (tw_e w) ≠ 0 → TE q (decode kq_nat2not g (tw_e w) .&^ Write kqueue .&^ t_write kq) true ∈ evn).
Proof.
  intros Hi Hh Hgo Hs. destruct (holds_id _ _ _ _ _ _ Hi Hh) as [Hid _]. destruct Hh as (Hp&w&Hw&Hf&He&Hd).
  destruct (ti_path _ _ Hi q i Hp) as (x&Hx&Hxp&_). rewrite Hw in Hx. injection Hx as <-.
  exists w. split_and!; [unfold tw_at; rewrite Hp; cbn; done|done|]. intros Hdec.
  inversion Hs as [| | |? ? ? ? ? ? ? Ho H]; subst. unfold trg_process in H. cbn [t_fds kq] in H.
  unfold t_Watched in H. cbn [t_fds kq] in H. rewrite Hid, Hw, Hd in H. cbv zeta in H. change (t_nat2not kq) with kq_nat2not in H.
  apply N.eqb_neq in Hdec. rewrite Hdec in H. cbn [andb] in H.
  assert ((g .& native_gone kq =? 0) = false) as Hz by (by apply N.eqb_neq). rewrite Hz in H.
  destruct (trg_dir kq s A ord i w _ g) as [s2 evn2] eqn:E. apply pair_equal_spec in H as [_ <-].
  unfold trg_dir in E. rewrite Hz in E. cbn [negb] in E.
  destruct (if nonzero (g .& t_rename kq) then _ else _) as [s3 evn3] eqn:E3. apply pair_equal_spec in E as [_ <-].
  destruct (nonzero (g .& t_rename kq)); [eapply moved_keeps; [exact E3|by left]|apply pair_equal_spec in E3 as [_ <-]; by left].
Qed.
