(** * KqCreate: what is not in the table of the kqueue watcher stays out of it until it is found. *)
From Verif Require Import Base Event Paths Clean SpecClean CleanFacts Trigger SpecTrigger SpecTriggerFds TriggerFacts TriggerTab TriggerRun KqMon KqMonFacts.
Local Open Scope N_scope.

(** [q] is in the listing of the directory [p]. *)
Definition lists (A : answers) (p q : str) : Prop := ∃ ls fi, a_ls A p = Some ls ∧ fi ∈ ls ∧ q = join p (fi_name fi).
(** Nobody opens a descriptor for [q]: NewWatched is called for the path given to Watch or
    Rewatch and the entries listed there (/repo/watcher_trigger.go:151-218,256-295), and for
    what is listed in a directory that has been written to (/repo/watcher_trigger.go:334-348). *)
Definition leaves_out (l : klab) (q : str) : Prop :=
  match l with
  | KCall (TWatch _ A p _ _) | KCall (TRewatch _ _ A p _ _) => q ≠ p ∧ ¬ lists A p q
  | KProc (Some p) (TEvent _ A _ _ ge _) => ge .& t_write kq = 0 ∨ ¬ lists A p q
  | _ => True
  end.
(** The directory [p] is listed because it has been written to (/repo/watcher_trigger.go:334-348). *)
Definition scans (l : klab) (p : str) (A : answers) : Prop := ∃ st ord k g evn, l = KProc (Some p) (TEvent st A ord k g evn) ∧ g .& t_write kq ≠ 0.

(** [y] is found there, and the OS refuses nothing. *)
Definition finds (A : answers) (p y : str) : Prop := willing A ∧ ∃ ls isd, a_ls A p = Some ls ∧
  Forall (λ fi, proper (fi_name fi)) ls ∧ NoDup (fi_name <$> ls) ∧ FI y isd ∈ ls.

Notation out s q := (ts_path s !! q = None).
Lemma out_same s s' q : same_at kq s s' q → out s q → out s' q.
Proof. intros [H _ _]. by rewrite H. Qed.
Lemma out_singlewatch s A p e m d s' r q : tinv s → fresh_fd A → singlewatch kq s A p e m d = (s', r) → p ≠ q → out s q → out s' q.
Proof. intros Hi HA H Hne. eapply out_same. by eapply (singlewatch_same kq). Qed.
Lemma out_singleunwatch s A p m s' r q : tinv s → singleunwatch kq s A p m = (s', r) → out s q → out s' q.
Proof.
  intros Hi H Ho. destruct (decide (p = q)) as [->|Hne]; [|eapply out_same; [by eapply (singleunwatch_same kq)|done]].
  unfold singleunwatch in H. rewrite Ho in H. by apply pair_equal_spec in H as [<- _].
Qed.
Lemma out_del s i q : out s q → out (t_Del kq s i) q.
Proof. intros H. unfold t_Del. destruct (ts_heap s !! i) as [w|]; [|done]. cbn. destruct (decide (tw_p w = q)) as [->|]; [apply lookup_delete|by rewrite lookup_delete_ne]. Qed.
Lemma out_walk_fold f s ls s' r q : tinv s →
  (∀ s fi s' r, fi ∈ ls → tinv s → f s fi = (s', r) → tinv s' ∧ (out s q → out s' q)) →
  walk_fold f s ls = (s', r) → out s q → tinv s' ∧ out s' q.
Proof.
  revert s. induction ls as [|x ls IH]; intros s Hi Hf H Hh; cbn [walk_fold] in H; [by apply pair_equal_spec in H as [<- _]|].
  destruct (f s x) as [s1 r1] eqn:E. destruct (Hf s x s1 r1) as [H1 H2]; [by left|done|done|].
  destruct r1; [|apply pair_equal_spec in H as [<- _]; split; [done|by apply H2]..].
  apply (IH s1); [done| |done|by apply H2]. intros ? fi ? ? Hin. apply Hf. by right.
Qed.
Lemma out_watch s A p e d s' r q : fresh_fd A → tinv s → trg_watch kq s A p e d = (s', r) → q ≠ p → ¬ lists A p q → out s q → out s' q.
Proof.
  intros HA Hi H Hqp Hq Ho. unfold trg_watch in H. destruct (singlewatch _ _ _ _ _ _ _) as [s1 r1] eqn:E.
  assert (tinv s1) as H1 by (by eapply (singlewatch_inv kq)). assert (out s1 q) as Ho1 by (eapply out_singlewatch; [exact Hi|exact HA|exact E|done|done]).
  assert ((if d then walk s1 A p (watch_entry kq A p e) else (s1, ROk)) = (s', r) → out s' q) as K.
  { destruct d; [|intros [<- _]%pair_equal_spec; done]. unfold walk. destruct (a_ls A p) as [ls|] eqn:El; [|intros [<- _]%pair_equal_spec; done].
    intros Hw. eapply out_walk_fold in Hw; [by apply Hw|done| |done]. intros s2 fi s3 r3 Hin Hi2 H2. split; [by eapply (watch_entry_inv kq)|].
    unfold watch_entry in H2. destruct (singlewatch _ s2 _ _ _ _ _) as [s4 r4] eqn:E4. apply pair_equal_spec in H2 as [<- _].
    eapply out_singlewatch; [exact Hi2|exact HA|exact E4|]. intros Heq. apply Hq. by exists ls, fi. }
  destruct r1; first [by apply K | apply pair_equal_spec in H as [<- _]; done].
Qed.
Lemma out_unwatch s A p d s' r q : tinv s → trg_unwatch kq s A p d = (s', r) → out s q → out s' q.
Proof.
  intros Hi H Ho. unfold trg_unwatch in H.
  destruct (if d then walk s A p (unwatch_entry kq A p) else (s, ROk)) as [s1 r1] eqn:E.
  assert (tinv s1 ∧ out s1 q) as [H1 K1].
  { destruct d; [|by apply pair_equal_spec in E as [<- _]]. unfold walk in E. destruct (a_ls A p) as [ls|] eqn:El; [|by apply pair_equal_spec in E as [<- _]].
    eapply out_walk_fold in E; [exact E|done| |done]. intros s2 fi s3 r3 Hin Hi2 H2. split; [by eapply (unwatch_entry_inv kq)|].
    unfold unwatch_entry in H2. destruct (singleunwatch kq s2 A (join p (fi_name fi)) MNDir) as [s4 r4] eqn:E4. apply pair_equal_spec in H2 as [<- _].
    by eapply out_singleunwatch. }
  destruct r1; [by eapply out_singleunwatch|apply pair_equal_spec in H as [<- _]; done..].
Qed.
Lemma out_moved A w e ord s evn s' evn' q : tinv s → foldl (dir_moved1 kq A w e) (s, evn) ord = (s', evn') → out s q → out s' q.
Proof.
  revert s evn. induction ord as [|k ord IH]; intros s evn Hi H Hh; cbn [foldl] in H; [by apply pair_equal_spec in H as [<- _]|].
  destruct (dir_moved1 kq A w e (s, evn) k) as [s1 evn1] eqn:E. pose proof (moved1_inv _ _ _ _ _ _ _ _ _ Hi E) as H1.
  eapply IH; [exact H1|exact H|]. unfold dir_moved1 in E. destruct (has_prefix _ k) eqn:Hk; [|by apply pair_equal_spec in E as [<- _]].
  apply pair_equal_spec in E as [<- _]. destruct (singleunwatch kq s A k MBoth) as [s2 r2] eqn:E2.
  cbn [fst]. eapply out_singleunwatch; [exact Hi|exact E2|done].
Qed.
Lemma out_rescan A w ls s evn s' evn' q : fresh_fd A → tinv s → foldl (rescan1 kq A w) (s, evn) ls = (s', evn') →
  (∀ fi, fi ∈ ls → q ≠ join (tw_p w) (fi_name fi)) → out s q → out s' q.
Proof.
  intros HA. revert s evn. induction ls as [|fi ls IH]; intros s evn Hi H Hne Hh; cbn [foldl] in H; [by apply pair_equal_spec in H as [<- _]|].
  destruct (rescan1 kq A w (s, evn) fi) as [s1 evn1] eqn:E. eapply IH; [by eapply (rescan1_inv kq)|exact H|intros ? ?; apply Hne; by right|].
  unfold rescan1 in E. destruct (singlewatch kq s A _ _ _ _) as [s2 r2] eqn:E2. apply pair_equal_spec in E as [<- _].
  eapply out_singlewatch; [exact Hi|exact HA|exact E2| |done]. intros Heq. apply (Hne fi); [by left|done].
Qed.
Lemma out_process s st A ord fd0 ge s' evn q : fresh_fd A → tinv s → trg_process kq s st A ord (inl fd0) ge = (s', evn) →
  leaves_out (KProc (owner s fd0) (TEvent st A ord (inl fd0) ge evn)) q → out s q → out s' q.
Proof.
  intros HA Hi H Hsp Hh. unfold trg_process in H. cbn [t_fds kq] in H.
  destruct (t_Watched kq s (inl fd0)) as [j|] eqn:Hk; [|by apply pair_equal_spec in H as [<- _]].
  destruct (Watched_path kq s (inl fd0) j Hi Hk) as (w&Hw&Hp&Hid). rewrite Hw in H. cbv zeta in H.
  assert (owner s fd0 = Some (tw_p w)) as Ho.
  { unfold owner. cbn in Hk. rewrite Hk. cbn. by rewrite Hw. }
  rewrite Ho in Hsp. cbn [leaves_out] in Hsp.
  match type of H with (if _ then (?x, _) else _) = _ => set (s1 := x) in * end.
  assert (tinv s1 ∧ out s1 q) as [H1 Hh1].
  { unfold s1. destruct (ge .& native_gone kq =? 0); [|done]. destruct st as [d|]; [|done]. destruct (t_Watch kq s A j _) as [s2 r2] eqn:E.
    destruct (watch_call_inv kq _ _ _ _ _ _ _ Hi Hw E) as (H2&H3&H4&H5).
    assert (out s2 q) as Hh2 by (by rewrite H3).
    assert (tinv (t_Del kq s2 j)) by (eapply (del_inv kq); [done|by rewrite H3|by rewrite H4]).
    destruct r2; [done|split; [done|by apply out_del]..]. }
  clearbody s1. destruct ((_ =? 0) && _); [by apply pair_equal_spec in H as [<- _]|].
  assert (∀ s2, out s2 q → out (if nonzero (ge .& native_gone kq) then t_Del kq s2 j else s2) q) as Kd.
  { intros s2 Ho2. destruct (nonzero _); [by apply out_del|done]. }
  destruct (tw_dir w); [|apply pair_equal_spec in H as [<- _]; by apply Kd].
  destruct (trg_dir kq s1 A ord j w _ ge) as [s2 evn2] eqn:E. apply pair_equal_spec in H as [<- _]. apply Kd.
  unfold trg_dir in E. destruct (nonzero (ge .& native_gone kq)).
  - destruct (if nonzero (ge .& t_rename kq) then _ else _) as [s3 evn3] eqn:E3. apply pair_equal_spec in E as [<- _]. apply out_del.
    destruct (nonzero (ge .& t_rename kq)); [by eapply out_moved|by apply pair_equal_spec in E3 as [<- _]].
  - destruct (nonzero (ge .& t_write kq)) eqn:Hwr; [|by apply pair_equal_spec in E as [<- _]].
    destruct (a_ls A (tw_p w)) as [ls|] eqn:El; [|by apply pair_equal_spec in E as [<- _]].
    eapply out_rescan; [exact HA|exact H1|exact E| |done]. intros fi Hin Heq. destruct Hsp as [Hz|Hl].
    + rewrite Hz in Hwr. done.
    + apply Hl. by exists ls, fi.
Qed.
Lemma kstep_out s l s' q : tinv (k_t s) → kstep s l s' → leaves_out l q → out (k_t s) q → out (k_t s') q.
Proof.
  intros Hi H Hsp Hh. destruct H as [t pend mon l t' pend' Hc Hl Ht Hn|t pend mon fd' ge q' m Ho Hr Hg Hm|t pend fd' ge Hp|t pend fd' ge st A ord evn t' pend' l Hl Ht Hn]; cbn [k_t] in *; try done.
  - destruct Ht as [st A p e s' r H|st A p s' r H|st A A' p e s' r H|st A ord k ge s' evn Ho H]; cbn in Hl, Hsp.
    + unfold trg_Watch in H. destruct st; [|by apply pair_equal_spec in H as [<- _]]. destruct Hsp. by eapply out_watch.
    + unfold trg_Unwatch in H. destruct st; [|by apply pair_equal_spec in H as [<- _]]. by eapply out_unwatch.
    + unfold trg_Rewatch in H. destruct st as [d|]; [|by apply pair_equal_spec in H as [<- _]]. destruct Hl as [_ Hl], Hsp as [Hq1 Hq2].
      destruct (trg_unwatch kq t A p d) as [s1 r1] eqn:E. assert (tinv s1) as Hi1 by (by eapply (trg_unwatch_inv kq)).
      assert (out s1 q) as Hh1 by (eapply out_unwatch; [exact Hi|exact E|done]).
      destruct r1; [|by apply pair_equal_spec in H as [<- _]..]. apply pair_equal_spec in H as [<- _].
      destruct (trg_watch kq s1 A' p e d) as [s2 r2] eqn:E2. eapply out_watch; [exact Hl|exact Hi1|exact E2|done|done|done].
    + done.
  - inversion Ht as [| | |? ? ? ? ? ? ? Ho H]; subst. eapply out_process; [exact Hl|exact Hi|exact H|done|done].
Qed.
(** Directly watched for [e0], a directory or not, it stays while what comes spares it. *)
Lemma kruns_direct l1 s ls s' q w : krun l1 s → kruns s ls s' → (∀ l, l ∈ ls → spares l q) → tw_at (k_t s) q = Some w →
  ∃ w', tw_at (k_t s') q = Some w' ∧ incl_ev (tw_eDir w) (tw_eDir w') ∧ tw_dir w' = tw_dir w ∧ tw_fd w' = tw_fd w.
Proof.
  intros H1 H Hsp Hw. unfold tw_at in Hw. destruct (ts_path (k_t s) !! q) as [i|] eqn:E; [|done]. cbn in Hw.
  set (P0 := λ x, incl_ev (tw_eDir w) (tw_eDir x)).
  assert (∀ m e x, P0 x → P0 (add_role m e x)) as Hok by (intros m e x Hx k Hk; by apply add_role_eDir, Hx).
  assert (keeps P0 (tw_dir w) (k_t s) q i (tw_fd w)) as Hh.
  { split; [done|]. exists w. split_and!; try done. by intros j Hj. }
  assert (keeps P0 (tw_dir w) (k_t s') q i (tw_fd w)) as (Hp&w'&Hw'&Hf&He&Hd).
  { clear E Hw. revert l1 H1 Hh. induction H as [|s l s' ls s'' Hs _ IH]; intros l1 H1 Hh; [done|].
    eapply (IH ltac:(intros z Hz; apply Hsp; by right) (l1 ++ [l])); [by econstructor|].
    exact (kstep_keeps _ _ _ _ _ _ _ _ Hok (krun_inv _ _ H1) Hs (Hsp l ltac:(by left)) Hh). }
  exists w'. split_and!; [|done|done|done]. unfold tw_at. by rewrite Hp.
Qed.
Lemma kruns_out l1 s ls s' q : krun l1 s → kruns s ls s' → (∀ l, l ∈ ls → leaves_out l q) → out (k_t s) q → out (k_t s') q.
Proof.
  intros H1 H. revert l1 H1. induction H as [|s l s' ls s'' Hs _ IH]; intros l1 H1 Hsp Hh; [done|].
  eapply (IH (l1 ++ [l])); [by econstructor|intros z Hz; apply Hsp; by right|].
  eapply kstep_out; [by eapply krun_inv|exact Hs|apply Hsp; by left|done].
Qed.

Lemma kruns_split s1 a b s : kruns s1 (a ++ b) s → ∃ s0, kruns s1 a s0 ∧ kruns s0 b s.
Proof.
  revert s1. induction a as [|l a IH]; intros s1 H; cbn [app] in H; [exists s1; split; [constructor|done]|].
  inversion H as [|? ? s2 ? ? Hs H2]; subst. destruct (IH _ H2) as (s0&H0&H3). exists s0. split; [by econstructor|done].
Qed.
Lemma first_of {X} (S N : X → Prop) l x : (∀ z, z ∈ l → S z ∨ N z) → x ∈ l → ¬ N x → ∃ u z v, l = u ++ z :: v ∧ S z ∧ ∀ t, t ∈ u → N t.
Proof.
  intros H. induction l as [|z l IH]; intros Hx Hn; [by apply elem_of_nil in Hx|].
  destruct (H z ltac:(by left)) as [Hs|Hz]; [exists [], z, l; split_and!; [done|done|intros t Ht; by apply elem_of_nil in Ht]|].
  apply elem_of_cons in Hx as [->|Hx]; [done|]. destruct IH as (u&y&v&->&Hy&Hu); [intros t Ht; apply H; by right|done|done|].
  exists (z :: u), y, v. split_and!; [done|done|]. intros t [->|Ht]%elem_of_cons; [done|by apply Hu].
Qed.
