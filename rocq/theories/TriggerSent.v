(** * TriggerSent: what the events of the kqueue and FEN watcher say. *)
From Verif Require Import Base Event Paths Clean Trigger SpecTrigger SpecTriggerFds TriggerFacts TriggerTab TriggerRun TriggerRoles TriggerScan.
Local Open Scope N_scope.

Section sent.
Context (T : trig) (HT : known_trig T).
Notation P := (t_plat T).

Lemma subject_unique s k w w' : tinv T s → subject T s k w → subject T s k w' → w' = w.
Proof.
  intros Hi [(i&Hp&Hw)%tw_at_Some H1] [(j&Hq&Hx)%tw_at_Some H2]. destruct (decide (tw_p w = tw_p w')) as [E|Hne].
  - rewrite E, Hq in Hp. injection Hp as ->. congruence.
  - destruct (ident_inj T s _ _ i j w w' Hi Hp Hw Hq Hx Hne) as [_ []]. congruence.
Qed.
Definition gone_bits : list (N * N) := [(Rename P, t_rename T); (Remove P, t_remove T)].
Lemma gone_single x f : (x, f) ∈ gone_bits → (∃ i, has x i) ∧ (∃ j, has f j) ∧ disj_ev x (Write P) ∧ disj_ev x (t_write T) ∧ disj_ev f (Write P) ∧ disj_ev f (t_write T) ∧ f ∈ natives T.
Proof.
  intros H. unfold gone_bits in H. rewrite !elem_of_cons, elem_of_nil in H.
  destruct HT as [-> | ->]; cbn [t_plat t_rename t_remove t_write kq fn] in H |- *;
  (destruct H as [H|[H|[]]]; apply pair_equal_spec in H as [-> ->]);
  (split_and!; [|  |apply land_zero_disj; by vm_compute..|apply in_bool; by vm_compute]).
  all: first [exists 0; by vm_compute|exists 4; by vm_compute|exists 5; by vm_compute|exists 6; by vm_compute|exists 9; by vm_compute|exists 11; by vm_compute].
Qed.
(** What is left of a decoded removal or renaming *)
Lemma gone_left w ge : asked T w ge → ge .& (t_rename T .| t_remove T) ≠ 0 → decode (t_nat2not T) ge (tw_e w) .&^ Write P .&^ t_write T ≠ 0.
Proof.
  intros [A1 A2] Hge.
  assert (∃ x f, (x, f) ∈ gone_bits ∧ ge .& f ≠ 0 ∧ tw_e w .& (x .| f) ≠ 0) as (x&f&Hxf&Hf&Hw).
  { rewrite N.land_lor_distr_r in Hge. destruct (decide (ge .& t_rename T = 0)) as [E|E].
    - rewrite E, N.lor_0_l in Hge. exists (Remove P), (t_remove T). split_and!; [right; left|done|by apply A2].
    - exists (Rename P), (t_rename T). split_and!; [left|done|by apply A1]. }
  destruct (gone_single x f Hxf) as ((i&Hi)&(j&Hj)&D1&D2&D3&D4&Hn).
  assert ((x, f) ∈ counterpart T) as Hc.
  { unfold counterpart. unfold gone_bits in Hxf. rewrite !elem_of_cons, elem_of_nil in *. tauto. }
  rewrite N.land_lor_distr_r in Hw.
  assert (∃ y k, reported T ge y ∧ tw_e w .& y ≠ 0 ∧ has y k ∧ disj_ev y (Write P) ∧ disj_ev y (t_write T)) as (y&k&R&Hy&Hk&E1&E2).
  { destruct (decide (tw_e w .& x = 0)) as [E|E].
    - rewrite E, N.lor_0_l in Hw. exists f, j. split_and!; try done. by left.
    - exists x, i. split_and!; try done. right. by exists f. }
  assert (has (decode (t_nat2not T) ge (tw_e w)) k) as Hd by (apply decode_spec; [done|]; by exists y).
  intros E. assert (has (decode (t_nat2not T) ge (tw_e w) .&^ Write P .&^ t_write T) k) as K.
  { rewrite !has_ldiff. split_and!; [done| |]; [intros ?; by apply (E1 k)|intros ?; by apply (E2 k)]. }
  rewrite E in K. unfold has in K. by rewrite N.bits_0 in K.
Qed.
(** The events sent for a member of a renamed directory *)
Lemma moved_events A w e ord s evn s' evn' : foldl (dir_moved1 T A w e) (s, evn) ord = (s', evn') →
  ∀ ev, ev ∈ evn' → ev ∈ evn ∨ ∃ k, k ∈ ord ∧ below (tw_p w) k ∧ tw_e w .& (t_rename T .| Rename P) ≠ 0 ∧ ev = TE k (tw_e w .& e .&^ Write P .&^ t_write T) (tw_dir w).
Proof.
  revert s evn. induction ord as [|k ord IH]; intros s evn H ev Hev; cbn [foldl] in H.
  - apply pair_equal_spec in H as [_ <-]. by left.
  - destruct (dir_moved1 T A w e (s, evn) k) as [s1 evn1] eqn:E. destruct (IH _ _ H ev Hev) as [H1|(j&Hj&Hr)].
    + unfold dir_moved1 in E. destruct (has_prefix _ _) eqn:Hp; [|apply pair_equal_spec in E as [_ <-]; by left].
      apply pair_equal_spec in E as [_ <-]. destruct (tw_e w .& (t_rename T .| Rename P) =? 0) eqn:Hz; cbn [negb] in H1; [by left|].
      apply elem_of_app in H1 as [H1|H1]; [by left|]. apply elem_of_list_singleton in H1. right. exists k. split_and!; [left|by apply has_prefix_below|by apply N.eqb_neq|done].
    + right. exists j. split; [by right|done].
Qed.
Lemma rescan_sent A w ls s evn s' evn' : foldl (rescan1 T A w) (s, evn) ls = (s', evn') →
  ∀ ev, ev ∈ evn' → ev ∈ evn ∨ ∃ fi x, fi ∈ (ls : list finfo) ∧ (x = Create P ∨ x = Remove P) ∧ tw_eDir w .& x ≠ 0 ∧ ev = TE (join (tw_p w) (fi_name fi)) x (fi_dir fi).
Proof.
  revert s evn. induction ls as [|fi ls IH]; intros s evn H ev Hev; cbn [foldl] in H.
  - apply pair_equal_spec in H as [_ <-]. by left.
  - destruct (rescan1 T A w (s, evn) fi) as [s1 evn1] eqn:E. destruct (IH _ _ H ev Hev) as [H1|(j&x&Hj&Hr)].
    + unfold rescan1 in E. destruct (singlewatch T s A _ _ _ _) as [s2 r2]. apply pair_equal_spec in E as [_ <-].
      destruct (bool_decide (r2 = RNotExist) && nonzero (tw_eDir w .& Remove P)) eqn:B.
      * apply andb_true_iff in B as [_ B]. apply elem_of_app in H1 as [H1|H1]; [by left|]. apply elem_of_list_singleton in H1.
        right. exists fi, (Remove P). split_and!; [left|by right|by apply nz_iff|done].
      * destruct r2; try by left. destruct (tw_eDir w .& Create P =? 0) eqn:Hz; cbn [negb] in H1; [by left|].
        apply elem_of_app in H1 as [H1|H1]; [by left|]. apply elem_of_list_singleton in H1.
        right. exists fi, (Create P). split_and!; [left|by left|by apply N.eqb_neq|done].
    + right. exists j, x. split; [by right|done].
Qed.
Lemma generic_single x : x = Create P ∨ x = Remove P → ∃ n, x = 2 ^ n.
Proof. intros [-> | ->]; (destruct HT as [-> | ->]; [first [by exists 8|by exists 9]|first [by exists 8|by exists 9]]). Qed.
Lemma single_incl w x : (∃ n, x = 2 ^ n) → w .& x ≠ 0 → incl_ev x w ∧ x ≠ 0.
Proof.
  intros [n ->] H. split; [|intros E; by rewrite E, N.land_0_r in H]. intros i Hi. unfold has in *. rewrite N.pow2_bits_eqb in Hi. apply N.eqb_eq in Hi as <-.
  apply nz_iff in H. by rewrite tb_pow in H.
Qed.
(** The directory flag of an event: that of the subject, of the entry, or (below a renamed
    directory) always set. *)
Definition flag_ok (A : answers) (w : tw) (ge : N) (ev : tevent) : Prop :=
  (te_p ev = tw_p w ∧ te_dir ev = tw_dir w) ∨
  (∃ ls fi, tw_dir w = true ∧ a_ls A (tw_p w) = Some ls ∧ fi ∈ (ls : list finfo) ∧ te_p ev = join (tw_p w) (fi_name fi) ∧ te_dir ev = fi_dir fi) ∨
  (below (tw_p w) (te_p ev) ∧ tw_dir w = true ∧ ge .& t_rename T ≠ 0 ∧ te_dir ev = true).
Lemma process_sent s st A ord k ge s' evn : tinv T s → ord ≡ₚ (map_to_list (ts_path s)).*1 → trg_process T s st A ord k ge = (s', evn) →
  (evn = [] ∨ ∃ w, subject T s k w) ∧
  ∀ w, subject T s k w → ∀ ev, ev ∈ evn → incl_ev (te_e ev) (tw_e w) ∧ about s A w ev ∧ flag_ok A w ge ev ∧ (asked T w ge → te_e ev ≠ 0).
Proof.
  intros Hi Hord H. unfold trg_process in H.
  set (s0 := if t_fds T then s else set_reg s (delete k (ts_reg s))) in *.
  assert (tinv T s0) as Hi0 by (unfold s0; destruct (t_fds T); [done|by apply tinv_reg_delete]).
  assert (ts_path s0 = ts_path s ∧ ts_heap s0 = ts_heap s) as [Ep Eh] by (unfold s0; by destruct (t_fds T)).
  assert (∀ p, tw_at s0 p = tw_at s p) as Et by (intros p; unfold tw_at; by rewrite Ep, Eh).
  destruct (t_Watched T s0 k) as [i|] eqn:Hk.
  2:{ apply pair_equal_spec in H as [_ <-]. split; [by left|]. by intros w _ ev ?%elem_of_nil. }
  destruct (Watched_path T s0 k i Hi0 Hk) as (w&Hw&Hp&Hid). rewrite Hw in H. cbv zeta in H.
  assert (subject T s k w) as Hsub by (split; [rewrite <-Et; by eapply tw_at_eq|done]).
  split; [right; by exists w|]. intros w' Hsub'. rewrite (subject_unique s k w w' Hi Hsub Hsub'). clear w' Hsub'.
  match type of H with (if _ then (?x, _) else _) = _ => set (s1 := x) in * end.
  destruct ((decode (t_nat2not T) ge (tw_e w) =? 0) && _) eqn:Hn; [apply pair_equal_spec in H as [_ <-]; by intros ev ?%elem_of_nil|].
  assert (incl_ev (decode (t_nat2not T) ge (tw_e w)) (tw_e w)) as Hinc by (by apply decode_incl).
  destruct (tw_dir w) eqn:Hdir.
  2:{ apply pair_equal_spec in H as [_ <-]. intros ev ->%elem_of_list_singleton. cbn [te_e te_p te_dir]. split_and!; [done|by left|left; by rewrite Hdir|].
      intros _. cbn [negb orb] in Hn. rewrite andb_true_r in Hn. by apply N.eqb_neq. }
  destruct (trg_dir T s1 A ord i w _ ge) as [s2 evn2] eqn:E. apply pair_equal_spec in H as [_ <-]. unfold trg_dir in E.
  destruct (ge .& native_gone T =? 0) eqn:Hg; cbn [negb] in E.
  - destruct (nonzero (ge .& t_write T)); [|apply pair_equal_spec in E as [_ <-]; by intros ev ?%elem_of_nil].
    destruct (a_ls A (tw_p w)) as [ls|] eqn:Hls; [|apply pair_equal_spec in E as [_ <-]; by intros ev ?%elem_of_nil].
    intros ev Hev. destruct (rescan_sent _ _ _ _ _ _ _ E ev Hev) as [?%elem_of_nil|(fi&x&Hfi&Hx&Hnz&->)]; [done|]. cbn [te_e te_p te_dir].
    destruct (single_incl _ _ (generic_single x Hx) Hnz) as [K1 K2]. split_and!.
    + intros j Hj. unfold tw_e. rewrite has_lor. left. by apply K1.
    + right; left. exists ls. split; [done|]. apply elem_of_list_fmap. by exists fi.
    + right; left. by exists ls, fi.
    + done.
  - apply N.eqb_neq in Hg.
    destruct (if nonzero (ge .& t_rename T) then _ else _) as [s3 evn3] eqn:E3. apply pair_equal_spec in E as [_ <-].
    assert (∀ ev, ev ∈ evn3 → ev = TE (tw_p w) (decode (t_nat2not T) ge (tw_e w) .&^ Write P .&^ t_write T) true ∨
      ∃ q, q ∈ ord ∧ below (tw_p w) q ∧ ge .& t_rename T ≠ 0 ∧ ev = TE q (tw_e w .& decode (t_nat2not T) ge (tw_e w) .&^ Write P .&^ t_write T) true) as K.
    { destruct (ge .& t_rename T =? 0) eqn:Hr; cbn [negb] in E3; [apply pair_equal_spec in E3 as [_ <-]; intros ev ?%elem_of_list_singleton; by left|].
      intros ev Hev. destruct (moved_events _ _ _ _ _ _ _ _ E3 ev Hev) as [?%elem_of_list_singleton|(q&Hq&Hb&_&->)]; [by left|].
      right. exists q. rewrite Hdir. split_and!; try done. by apply N.eqb_neq. }
    assert (tw_e w .& decode (t_nat2not T) ge (tw_e w) = decode (t_nat2not T) ge (tw_e w)) as Ew.
    { apply has_ext. intros j. rewrite has_land. split; [by intros [_ ?]|]. intros ?. split; [by apply Hinc|done]. }
    intros ev Hev. destruct (K ev Hev) as [-> | (q&Hq&Hb&Hr&->)]; cbn [te_e te_p te_dir].
    + split_and!; [|by left|left; by rewrite Hdir|intros ?; by apply gone_left].
      intros j Hj. rewrite !has_ldiff in Hj. destruct Hj as [[Hj _] _]. by apply Hinc.
    + rewrite Ew. split_and!; [| | |intros ?; by apply gone_left].
      * intros j Hj. rewrite !has_ldiff in Hj. destruct Hj as [[Hj _] _]. by apply Hinc.
      * right; right. split; [done|]. cbn [te_p]. rewrite Hord in Hq. apply elem_of_list_fmap in Hq as ([q' j]&->&Hm). apply elem_of_map_to_list in Hm. cbn.
        destruct (ti_path _ _ Hi _ _ Hm) as (y&Hy&_). rewrite (tw_at_eq s q' j y Hm Hy). eauto.
      * right; right. by rewrite Hdir.
Qed.
(** A file that is gone, and noticed, leaves the table; nothing else changes. *)
Lemma file_gone s st A ord w ge s' evn : tinv T s → tw_at s (tw_p w) = Some w → tw_dir w = false → ge .& (t_rename T .| t_remove T) ≠ 0 → noticed T w ge →
  trg_process T s st A ord (ident_of T w) ge = (s', evn) → tw_at s' (tw_p w) = None ∧ ∀ q, tw_p w ≠ q → same_at T s s' q.
Proof.
  intros Hi (i&Hp&Hw)%tw_at_Some Hdir Hge Hn H. unfold trg_process in H.
  set (s0 := if t_fds T then s else set_reg s (delete (ident_of T w) (ts_reg s))) in *.
  assert (tinv T s0) as Hi0 by (unfold s0; destruct (t_fds T); [done|by apply tinv_reg_delete]).
  assert (ts_path s0 !! tw_p w = Some i ∧ ts_heap s0 !! i = Some w) as [Hp0 Hw0] by (unfold s0; by destruct (t_fds T)).
  rewrite (process_subject T s0 _ w i Hi0 Hp0 Hw0), Hw0 in H. cbv zeta in H.
  replace (ge .& native_gone T =? 0) with false in H by (symmetry; by apply N.eqb_neq). cbn [negb] in H.
  assert ((decode (t_nat2not T) ge (tw_e w) =? 0) = false) as E by (destruct Hn as [?|[? _]]; [by apply N.eqb_neq|congruence]).
  rewrite E, Hdir in H. cbn [andb] in H. apply pair_equal_spec in H as [<- _]. split; [by apply tw_at_del|].
  intros q Hq. eapply same_trans; [by eapply taken_same|by eapply same_del].
Qed.
Lemma kq_asked w ge d : incl_ev ge (kq_encode (tw_e w) d) → asked kq w ge.
Proof.
  intros H. assert (∀ n m : N, kq_encode (tw_e w) d .& 2 ^ n ≠ 0 → (N.testbit (kq_encode (tw_e w) d) n = true → tw_e w .& (2 ^ m .| 2 ^ n) ≠ 0) → ge .& 2 ^ n ≠ 0 → tw_e w .& (2 ^ m .| 2 ^ n) ≠ 0) as K.
  { intros n m Hk K _. apply K. apply nz_iff in Hk. by rewrite tb_pow in Hk. }
  assert (∀ n : N, ge .& 2 ^ n ≠ 0 → N.testbit (kq_encode (tw_e w) d) n = true) as B.
  { intros n Hn. apply H. apply nz_iff in Hn. by rewrite tb_pow in Hn. }
  assert (∀ m n : N, N.testbit (tw_e w) n || N.testbit (tw_e w) m = true → tw_e w .& (2 ^ m .| 2 ^ n) ≠ 0) as C.
  { intros m n Hb E. rewrite N.land_lor_distr_r in E. apply N.lor_eq_0_iff in E as [E1 E2].
    assert (nonzero (tw_e w .& 2 ^ m) = false ∧ nonzero (tw_e w .& 2 ^ n) = false) as [F1 F2] by (by rewrite E1, E2). rewrite !tb_pow in F1, F2. by rewrite F1, F2 in Hb. }
  split.
  - intros Hn. change (Rename (t_plat kq) .| t_rename kq) with (2 ^ 11 .| 2 ^ 5). apply C. specialize (B 5 Hn). rewrite kq_encode_bit in B.
    change (N.testbit 0xf00 5) with false in B. cbn [negb] in B. change (5 =? 1) with false in B. change (5 =? 5) with true in B. change (5 =? 0) with false in B.
    by rewrite !andb_false_r, !andb_true_r, !orb_false_r in B.
  - intros Hn. change (Remove (t_plat kq) .| t_remove kq) with (2 ^ 9 .| 2 ^ 0). apply C. specialize (B 0 Hn). rewrite kq_encode_bit in B.
    change (N.testbit 0xf00 0) with false in B. cbn [negb] in B. change (0 =? 1) with false in B. change (0 =? 5) with false in B. change (0 =? 0) with true in B.
    by rewrite !andb_false_r, !andb_true_r, !orb_false_r in B.
Qed.
End sent.
