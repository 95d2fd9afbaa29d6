(** * TriggerTab: the tables of the kqueue and FEN watcher. *)
From Verif Require Import Base Event Paths Trigger SpecTrigger TriggerFacts.
Local Open Scope N_scope.

Section tab.
Context (T : trig).

Record tinv (s : tstate) : Prop := {
  ti_path : ∀ p i, ts_path s !! p = Some i → ∃ w, ts_heap s !! i = Some w ∧ tw_p w = p ∧
              (t_fds T = true → ts_id s !! tw_fd w = Some i ∧ tw_fd w ∈ ts_open s);
  ti_id : ∀ fd i, ts_id s !! fd = Some i → t_fds T = true ∧ ∃ w, ts_heap s !! i = Some w ∧ tw_fd w = fd ∧ ts_path s !! tw_p w = Some i;
  ti_next : ∀ i w, ts_heap s !! i = Some w → (i < ts_next s)%nat;
  ti_reg : ∀ fd e, ts_reg s !! inl fd = Some e → t_fds T = true ∧ fd ∈ ts_open s;
}.
Lemma tinv_init : tinv ts_init.
Proof. by split. Qed.

Lemma add_role_p m e w : tw_p (add_role m e w) = tw_p w. Proof. by destruct m. Qed.
Lemma add_role_fd m e w : tw_fd (add_role m e w) = tw_fd w. Proof. by destruct m. Qed.
Lemma add_role_dir m e w : tw_dir (add_role m e w) = tw_dir w. Proof. by destruct m. Qed.
Lemma clear_role_p m w : tw_p (clear_role m w) = tw_p w. Proof. by destruct m. Qed.
Lemma clear_role_fd m w : tw_fd (clear_role m w) = tw_fd w. Proof. by destruct m. Qed.
Lemma clear_role_dir m w : tw_dir (clear_role m w) = tw_dir w. Proof. by destruct m. Qed.

(** ** The elementary changes *)
Lemma tinv_set s i w w' : tinv s → ts_heap s !! i = Some w → tw_p w' = tw_p w → tw_fd w' = tw_fd w → tinv (set_tw s i w').
Proof.
  intros [H1 H2 H3 H4] Hw Hp Hf. split; cbn.
  - intros p j Hj. destruct (H1 p j Hj) as (x&Hx&Hxp&Hxf). destruct (decide (i = j)) as [<-|Hne].
    + rewrite Hw in Hx. injection Hx as <-. exists w'. rewrite lookup_insert, Hp, Hf. done.
    + exists x. by rewrite lookup_insert_ne.
  - intros fd j Hj. destruct (H2 fd j Hj) as (Ht&x&Hx&Hxp&Hxf). split; [done|]. destruct (decide (i = j)) as [<-|Hne].
    + rewrite Hw in Hx. injection Hx as <-. exists w'. rewrite lookup_insert, Hp, Hf. done.
    + exists x. by rewrite lookup_insert_ne.
  - intros j x. rewrite lookup_insert_Some. intros [[<- _]|[_ Hx]]; [|by eapply H3]. by eapply H3.
  - done.
Qed.
Lemma tinv_reg_insert s w e : tinv s → (t_fds T = true → tw_fd w ∈ ts_open s) → tinv (set_reg s (<[ident_of T w := e]> (ts_reg s))).
Proof.
  intros [H1 H2 H3 H4] Hw. split; cbn; try done. unfold ident_of. intros fd x. destruct (t_fds T) eqn:HT.
  - rewrite lookup_insert_Some. intros [[[= <-] _]|[_ Hx]]; [auto|]. by apply H4 in Hx.
  - rewrite lookup_insert_ne by done. apply H4.
Qed.
Lemma tinv_reg_sub s r : tinv s → (∀ k, r !! k = None ∨ r !! k = ts_reg s !! k) → tinv (set_reg s r).
Proof.
  intros [H1 H2 H3 H4] Hr. split; cbn; try done. intros fd e He. destruct (Hr (inl fd)) as [Hn|Hn]; [by rewrite Hn in He|].
  rewrite Hn in He. by eapply H4.
Qed.
Lemma tinv_reg_delete s k : tinv s → tinv (set_reg s (delete k (ts_reg s))).
Proof.
  intros H. apply tinv_reg_sub; [done|]. intros k'. destruct (decide (k = k')) as [<-|]; [left; apply lookup_delete|right; by apply lookup_delete_ne].
Qed.

(** ** singlewatch, as equations *)
Definition watched_state (s : tstate) (i : nat) (w : tw) (d : bool) : tstate :=
  set_reg (set_tw s i w) (<[ident_of T w := t_encode T (tw_e w) d]> (ts_reg s)).
Lemma live_inv s p i w : tinv s → ts_path s !! p = Some i → ts_heap s !! i = Some w → live T s w = true.
Proof.
  intros Hi Hp Hw. unfold live. destruct (t_fds T) eqn:HT; [|done]. cbn. destruct (ti_path _ Hi p i Hp) as (x&Hx&_&Hf).
  rewrite Hw in Hx. injection Hx as <-. apply bool_decide_eq_true. by apply Hf.
Qed.
Lemma singlewatch_known s A p e m d i w : tinv s → ts_path s !! p = Some i → ts_heap s !! i = Some w →
  singlewatch T s A p e m d =
    match a_watch A p with
    | SOk => (watched_state s i (add_role m e w) d, RAlready)
    | a => (set_tw s i (add_role m e w), res_of a)
    end.
Proof.
  intros Hi Hp Hw. unfold singlewatch, single_do, upd_tw, t_Watch, events_of. rewrite Hp, Hw. cbn [ts_heap set_tw]. rewrite !lookup_insert.
  rewrite add_role_p. destruct (ti_path _ Hi p i Hp) as (x&Hx&Hxp&Hf). rewrite Hw in Hx. injection Hx as <-. rewrite Hxp.
  destruct (a_watch A p); [|done|done]. pose proof (live_inv s p i w Hi Hp Hw) as Hl. unfold live in *. cbn [ts_open set_tw]. rewrite add_role_fd, Hl. done.
Qed.
Definition new_fd (s : tstate) (A : answers) : nat := if t_fds T then a_fd A (ts_open s) else 0%nat.
Definition alloc (s : tstate) (A : answers) (w : tw) : tstate :=
  TS (<[ts_next s := w]> (ts_heap s)) (ts_path s) (ts_id s) (S (ts_next s)) (if t_fds T then {[new_fd s A]} ∪ ts_open s else ts_open s) (ts_reg s) (ts_stray s).
Definition record (s : tstate) (i : nat) (w : tw) : tstate :=
  TS (ts_heap s) (<[tw_p w := i]> (ts_path s)) (if t_fds T then <[tw_fd w := i]> (ts_id s) else ts_id s) (ts_next s) (ts_open s) (ts_reg s) (ts_stray s).
Definition recorded_state (s : tstate) (A : answers) (w : tw) (d : bool) : tstate :=
  record (set_reg (alloc s A w) (<[ident_of T w := t_encode T (tw_e w) d]> (ts_reg s))) (ts_next s) w.
Definition opens (A : answers) (p : str) : newans := if t_fds T then a_new A p else NewOk.
Definition new_tw (s : tstate) (A : answers) (p : str) (d : bool) : tw := TW p d 0 0 (new_fd s A).
Lemma singlewatch_new s A p e m d : ts_path s !! p = None →
  singlewatch T s A p e m d =
    match opens A p with
    | NewOk => let w := add_role m e (new_tw s A p d) in
               match a_watch A p with SOk => (recorded_state s A w d, ROk) | a => (alloc s A w, res_of a) end
    | NewSkip => (s, ROk)
    | NewNotExist => (s, RNotExist)
    | NewErr => (s, RErr)
    end.
Proof.
  intros Hp. unfold singlewatch. rewrite Hp. unfold t_NewWatched, opens, new_tw, recorded_state, record, alloc, new_fd.
  unfold single_do, upd_tw, t_Watch, events_of, live, t_Record, ident_of.
  destruct (t_fds T) eqn:HT.
  - destruct (a_new A p); try done. cbv zeta. cbn [ts_heap set_tw]. rewrite !lookup_insert. cbn [ts_heap set_tw]. rewrite !lookup_insert, add_role_p. cbn [tw_p].
    rewrite ?insert_insert. destruct (a_watch A p); cbn [ts_path ts_id ts_next ts_open ts_reg ts_stray ts_heap set_tw set_reg negb orb res_of]; unfold set_tw, set_reg; cbn [ts_path ts_id ts_next ts_open ts_reg ts_stray ts_heap]; rewrite ?insert_insert; [|done|done].
    rewrite add_role_fd. cbn [tw_fd]. rewrite bool_decide_eq_true_2 by set_solver. cbn [ts_heap set_reg set_tw]. rewrite lookup_insert, add_role_p, add_role_fd.
    rewrite ?insert_insert. done.
  - cbv zeta. cbn [ts_heap set_tw]. rewrite !lookup_insert. cbn [ts_heap set_tw]. rewrite !lookup_insert, add_role_p. cbn [tw_p].
    rewrite ?insert_insert. destruct (a_watch A p); cbn [ts_path ts_id ts_next ts_open ts_reg ts_stray ts_heap set_tw set_reg negb orb res_of]; unfold set_tw, set_reg; cbn [ts_path ts_id ts_next ts_open ts_reg ts_stray ts_heap]; rewrite ?insert_insert; [|done|done].
    cbn [ts_heap set_reg set_tw]. rewrite lookup_insert, add_role_p. rewrite ?insert_insert. done.
Qed.
Lemma watched_state_inv s p i w w' d : tinv s → ts_path s !! p = Some i → ts_heap s !! i = Some w → tw_p w' = tw_p w → tw_fd w' = tw_fd w →
  tinv (watched_state s i w' d).
Proof.
  intros Hi Hp Hw H1 H2. unfold watched_state. change (ts_reg s) with (ts_reg (set_tw s i w')). apply tinv_reg_insert.
  - by eapply tinv_set.
  - cbn. rewrite H2. intros HT. destruct (ti_path _ Hi p i Hp) as (x&Hx&_&Hf). rewrite Hw in Hx. injection Hx as <-. by apply Hf.
Qed.
Lemma heap_next s : tinv s → ts_heap s !! ts_next s = None.
Proof. intros Hi. destruct (ts_heap s !! ts_next s) eqn:H; [|done]. apply (ti_next _ Hi) in H. lia. Qed.
Lemma alloc_inv s A w : tinv s → tinv (alloc s A w).
Proof.
  intros Hi. pose proof (heap_next s Hi) as Hn. destruct Hi as [H1 H2 H3 H4]. split; cbn.
  - intros p i Hp. destruct (H1 p i Hp) as (x&Hx&Hxp&Hf). exists x. rewrite lookup_insert_ne by congruence. split; [done|]. split; [done|].
    intros HT. rewrite HT. destruct (Hf HT). split; [done|]. set_solver.
  - intros fd i Hfd. destruct (H2 fd i Hfd) as (HT&x&Hx&Hf). split; [done|]. exists x. rewrite lookup_insert_ne by congruence. done.
  - intros i x. rewrite lookup_insert_Some. intros [[<- _]|[_ Hx]]; [lia|]. apply H3 in Hx. lia.
  - intros fd e He. destruct (H4 fd e He) as [HT ?]. rewrite HT. split; [done|]. set_solver.
Qed.
Lemma recorded_inv s A w d : tinv s → fresh_fd A → ts_path s !! tw_p w = None → tw_fd w = new_fd s A →
  tinv (recorded_state s A w d).
Proof.
  intros Hi HA Hp Hfd. unfold recorded_state.
  assert (tinv (set_reg (alloc s A w) (<[ident_of T w := t_encode T (tw_e w) d]> (ts_reg s)))) as [H1 H2 H3 H4].
  { change (ts_reg s) with (ts_reg (alloc s A w)). apply tinv_reg_insert; [by apply alloc_inv|]. intros HT. cbn. rewrite HT, Hfd. set_solver. }
  assert (t_fds T = true → ts_id s !! tw_fd w = None) as Hid.
  { intros HT. destruct (ts_id s !! tw_fd w) as [j|] eqn:E; [|done]. destruct (ti_id _ Hi _ _ E) as (_&x&Hx&Hxf&Hxp).
    destruct (ti_path _ Hi _ _ Hxp) as (y&Hy&_&Hf). rewrite Hx in Hy. injection Hy as <-. destruct (Hf HT) as [_ Ho].
    rewrite Hxf, Hfd in Ho. unfold new_fd in Ho. rewrite HT in Ho. by apply HA in Ho. }
  split; cbn -[ident_of].
  - intros p i. rewrite lookup_insert_Some. intros [[<- <-]|[Hne Hq]].
    + exists w. rewrite lookup_insert. split; [done|]. split; [done|]. intros HT. rewrite HT. rewrite lookup_insert. split; [done|]. rewrite Hfd. set_solver.
    + destruct (H1 p i Hq) as (x&Hx&Hxp&Hf). exists x. split; [done|]. split; [done|]. intros HT. specialize (Hf HT). cbn in Hf. destruct Hf as [Hf1 Hf2].
      split; [|done]. rewrite HT. rewrite lookup_insert_ne; [done|]. intros Heq. rewrite <-Heq in Hf1. rewrite (Hid HT) in Hf1. done.
  - intros fd i Hl. destruct (t_fds T) eqn:HT.
    + split; [done|]. apply lookup_insert_Some in Hl as [[<- <-]|[Hne Hq]].
      * exists w. by rewrite !lookup_insert.
      * destruct (H2 fd i Hq) as (_&x&Hx&Hxf&Hxp). cbn in Hx, Hxp. exists x. split; [done|]. split; [done|].
        rewrite lookup_insert_ne; [done|]. intros Heq. rewrite <-Heq, Hp in Hxp. done.
    + destruct (H2 fd i Hl) as [? _]. done.
  - exact H3.
  - exact H4.
Qed.
Lemma singlewatch_inv s A p e m d s' r : tinv s → fresh_fd A → singlewatch T s A p e m d = (s', r) → tinv s'.
Proof.
  intros Hi HA H. destruct (ts_path s !! p) as [i|] eqn:Hp.
  - destruct (ti_path _ Hi p i Hp) as (w&Hw&Hwp&_). rewrite (singlewatch_known s A p e m d i w Hi Hp Hw) in H.
    destruct (a_watch A p); apply pair_equal_spec in H as [<- _].
    + eapply watched_state_inv; [done..|apply add_role_p|apply add_role_fd].
    + eapply tinv_set; [done..|apply add_role_p|apply add_role_fd].
    + eapply tinv_set; [done..|apply add_role_p|apply add_role_fd].
  - rewrite (singlewatch_new s A p e m d Hp) in H. destruct (opens A p); [|apply pair_equal_spec in H as [<- _]; done..].
    cbv zeta in H. destruct (a_watch A p); apply pair_equal_spec in H as [<- _]; [|by apply alloc_inv..].
    apply recorded_inv; [done|done|by rewrite add_role_p|by rewrite add_role_fd].
Qed.

(** ** Del *)
Lemma del_inv s p i w : tinv s → ts_path s !! p = Some i → ts_heap s !! i = Some w → tinv (t_Del T s i).
Proof.
  intros Hi Hp Hw. destruct (ti_path _ Hi p i Hp) as (x&Hx&Hxp&Hf). rewrite Hw in Hx. injection Hx as <-.
  unfold t_Del. rewrite Hw. destruct Hi as [H1 H2 H3 H4]. destruct (t_fds T) eqn:HT.
  - destruct (Hf eq_refl) as [Hf1 Hf2]. split; cbn; try done.
    + intros q j. rewrite lookup_delete_Some. intros [Hne Hq]. destruct (H1 q j Hq) as (y&Hy&Hyp&Hyf). destruct (Hyf eq_refl) as [Hy1 Hy2].
      exists y. split; [done|]. split; [done|]. intros _.
      assert (tw_fd w ≠ tw_fd y) as Hd.
      { intros Heq. rewrite <-Heq, Hf1 in Hy1. injection Hy1 as <-. rewrite Hw in Hy. injection Hy as <-. congruence. }
      rewrite lookup_delete_ne by done. split; [done|]. set_solver.
    + intros fd j. rewrite lookup_delete_Some. intros [Hne Hq]. destruct (H2 fd j Hq) as (_&y&Hy&Hyf&Hyp). split; [done|]. exists y. split; [done|]. split; [done|].
      rewrite lookup_delete_ne; [done|]. intros Heq. rewrite <-Heq, Hxp, Hp in Hyp. injection Hyp as <-. rewrite Hw in Hy. injection Hy as <-. congruence.
    + intros fd e. rewrite lookup_delete_Some. intros [Hne He]. split; [done|]. destruct (H4 fd e He) as [_ ?]. set_solver.
  - split; cbn; try done.
    + intros q j. rewrite lookup_delete_Some. intros [Hne Hq]. rewrite HT. apply (H1 q j Hq).
    + intros fd j Hq. by destruct (H2 fd j Hq).
    + intros fd e He. by destruct (H4 fd e He).
Qed.
(** Deleting what is not in the tables changes nothing there. *)
Lemma del_again_inv s i w : tinv s → ts_heap s !! i = Some w → ts_path s !! tw_p w = None → (t_fds T = true → ts_id s !! tw_fd w = None) → tinv (t_Del T s i).
Proof.
  intros [H1 H2 H3 H4] Hw Hp Hd. unfold t_Del. rewrite Hw. destruct (t_fds T) eqn:HT.
  - specialize (Hd eq_refl). split; cbn; try done.
    + intros q j. rewrite lookup_delete_Some. intros [Hne Hq]. destruct (H1 q j Hq) as (y&Hy&Hyp&Hyf). destruct (Hyf eq_refl) as [Hy1 Hy2].
      exists y. split; [done|]. split; [done|]. intros _. assert (tw_fd w ≠ tw_fd y) as Hne2 by (intros Heq; rewrite <-Heq in Hy1; congruence).
      rewrite lookup_delete_ne by done. split; [done|]. set_solver.
    + intros fd j. rewrite lookup_delete_Some. intros [Hne Hq]. destruct (H2 fd j Hq) as (_&y&Hy&Hyf&Hyp). split; [done|]. exists y. split; [done|]. split; [done|].
      rewrite lookup_delete_ne; [done|]. congruence.
    + intros fd e. rewrite lookup_delete_Some. intros [Hne He]. split; [done|]. destruct (H4 fd e He) as [_ ?]. set_solver.
  - split; cbn; try done.
    + intros q j. rewrite lookup_delete_Some. intros [Hne Hq]. rewrite HT. apply (H1 q j Hq).
    + intros fd j Hq. by destruct (H2 fd j Hq).
    + intros fd e He. by destruct (H4 fd e He).
Qed.

(** ** singleunwatch, as an equation *)
Lemma restore_role m w : nonzero (tw_e (clear_role m w)) = true →
  add_role (if nonzero (tw_eNonDir (clear_role m w)) then MNDir else MDir) (tw_e (clear_role m w)) (clear_role m w) = clear_role m w.
Proof.
  destruct m, w as [p d a c f]; unfold tw_e; cbn [clear_role tw_eDir tw_eNonDir tw_p tw_dir tw_fd].
  - rewrite N.lor_0_l. intros ->. cbn. by rewrite N.lor_diag.
  - intros _. change (nonzero 0) with false. cbn [add_role tw_eDir tw_eNonDir tw_p tw_dir tw_fd]. by rewrite N.lor_0_r, N.lor_diag.
  - done.
Qed.
Definition unreg_state (s : tstate) (i : nat) (w : tw) : tstate :=
  set_reg (set_tw s i w) (delete (ident_of T w) (ts_reg s)).
Lemma unreg_inv s p i w w' : tinv s → ts_path s !! p = Some i → ts_heap s !! i = Some w → tw_p w' = tw_p w → tw_fd w' = tw_fd w →
  tinv (unreg_state s i w').
Proof. intros Hi Hp Hw H1 H2. unfold unreg_state. change (ts_reg s) with (ts_reg (set_tw s i w')). apply tinv_reg_delete. by eapply tinv_set. Qed.
Lemma ident_clear m w : ident_of T (clear_role m w) = ident_of T w.
Proof. unfold ident_of. by rewrite clear_role_p, clear_role_fd. Qed.
Lemma ident_add m e w : ident_of T (add_role m e w) = ident_of T w.
Proof. unfold ident_of. by rewrite add_role_p, add_role_fd. Qed.
Lemma singleunwatch_known s A p m i w : tinv s → ts_path s !! p = Some i → ts_heap s !! i = Some w →
  singleunwatch T s A p m =
    let w' := clear_role m w in
    match a_unwatch A p with
    | SOk =>
        match ts_reg s !! ident_of T w with
        | Some _ =>
            if nonzero (tw_e w') then
              match a_watch A p with
              | SOk => (watched_state (unreg_state s i w') i w' (tw_dir w), ROk)
              | a => (unreg_state s i w', res_of a)
              end
            else (t_Del T (unreg_state s i w') i, ROk)
        | None => (set_tw s i w', RNotExist)
        end
    | a => (set_tw s i w', res_of a)
    end.
Proof.
  intros Hi Hp Hw. cbv zeta. unfold singleunwatch. rewrite Hp. unfold upd_tw, t_Unwatch. rewrite Hw. cbn [ts_heap set_tw]. rewrite lookup_insert, clear_role_p.
  destruct (ti_path _ Hi p i Hp) as (x&Hx&Hxp&_). rewrite Hw in Hx. injection Hx as <-. rewrite Hxp.
  destruct (a_unwatch A p); cbn [res_of]; [|done|done]. rewrite ident_clear. cbn [ts_reg set_tw].
  destruct (ts_reg s !! ident_of T w) eqn:Hr; [|done].
  replace (set_reg (set_tw s i (clear_role m w)) (delete (ident_of T w) (ts_reg s))) with (unreg_state s i (clear_role m w))
    by (unfold unreg_state; by rewrite ident_clear).
  assert (ts_heap (unreg_state s i (clear_role m w)) !! i = Some (clear_role m w)) as Hw' by apply lookup_insert. rewrite Hw'.
  destruct (nonzero (tw_e (clear_role m w))) eqn:He; [|done].
  rewrite (singlewatch_known _ A p _ _ _ i (clear_role m w)); [|eapply unreg_inv; [done..|apply clear_role_p|apply clear_role_fd]|done|done].
  rewrite (restore_role m w He), clear_role_dir. destruct (a_watch A p); cbn [res_of]; [done| |];
    (f_equal; unfold unreg_state, set_tw, set_reg; cbn [ts_path ts_id ts_next ts_open ts_reg ts_stray ts_heap]; by rewrite insert_insert).
Qed.
Lemma singleunwatch_inv s A p m s' r : tinv s → singleunwatch T s A p m = (s', r) → tinv s'.
Proof.
  intros Hi H. destruct (ts_path s !! p) as [i|] eqn:Hp.
  - destruct (ti_path _ Hi p i Hp) as (w&Hw&Hwp&_). rewrite (singleunwatch_known s A p m i w Hi Hp Hw) in H. cbv zeta in H.
    assert (tinv (set_tw s i (clear_role m w))) as K1 by (eapply tinv_set; [done..|apply clear_role_p|apply clear_role_fd]).
    assert (tinv (unreg_state s i (clear_role m w))) as K2 by (eapply unreg_inv; [done..|apply clear_role_p|apply clear_role_fd]).
    assert (ts_heap (unreg_state s i (clear_role m w)) !! i = Some (clear_role m w)) as Hw' by apply lookup_insert.
    destruct (a_unwatch A p); [|apply pair_equal_spec in H as [<- _]; done..].
    destruct (ts_reg s !! ident_of T w); [|apply pair_equal_spec in H as [<- _]; done].
    destruct (nonzero (tw_e (clear_role m w))).
    + destruct (a_watch A p); apply pair_equal_spec in H as [<- _]; [|done|done].
      eapply watched_state_inv; [exact K2| |exact Hw'|done|done]. exact Hp.
    + apply pair_equal_spec in H as [<- _]. eapply del_inv; [exact K2| |exact Hw']. exact Hp.
  - unfold singleunwatch in H. rewrite Hp in H. apply pair_equal_spec in H as [<- _]. done.
Qed.

(** ** Nothing else in the table changes *)
Notation reg_at := (reg_at T).
Record same_at (s s' : tstate) (q : str) : Prop := {
  sa_path : ts_path s' !! q = ts_path s !! q;
  sa_tw : tw_at s' q = tw_at s q;
  sa_reg : reg_at s' q = reg_at s q;
}.
Lemma same_refl s q : same_at s s q.
Proof. by split. Qed.
Lemma same_trans s1 s2 s3 q : same_at s1 s2 q → same_at s2 s3 q → same_at s1 s3 q.
Proof. intros [? ? ?] [? ? ?]. split; congruence. Qed.
Lemma tw_at_eq s p i w : ts_path s !! p = Some i → ts_heap s !! i = Some w → tw_at s p = Some w.
Proof. intros H1 H2. unfold tw_at. by rewrite H1. Qed.
Lemma tw_at_Some s p w : tw_at s p = Some w ↔ ∃ i, ts_path s !! p = Some i ∧ ts_heap s !! i = Some w.
Proof. unfold tw_at. destruct (ts_path s !! p) as [i|]; cbn; [|naive_solver]. split; [by eauto|]. intros (j&[= <-]&?). done. Qed.
Lemma tw_at_None s p : tinv s → tw_at s p = None ↔ ts_path s !! p = None.
Proof.
  intros Hi. unfold tw_at. destruct (ts_path s !! p) as [i|] eqn:E; [|done]. destruct (ti_path _ Hi p i E) as (w&Hw&_). cbn. by rewrite Hw.
Qed.
(** Different paths have different structures and identities. *)
Lemma ident_inj s p q i j w x : tinv s → ts_path s !! p = Some i → ts_heap s !! i = Some w → ts_path s !! q = Some j → ts_heap s !! j = Some x →
  p ≠ q → i ≠ j ∧ ident_of T w ≠ ident_of T x.
Proof.
  intros Hi Hp Hw Hq Hx Hne. destruct (ti_path _ Hi p i Hp) as (w'&Hw'&Hwp&Hf). destruct (ti_path _ Hi q j Hq) as (x'&Hx'&Hxp&Hg).
  rewrite Hw in Hw'. injection Hw' as <-. rewrite Hx in Hx'. injection Hx' as <-.
  assert (i ≠ j) as Hij by (intros ->; rewrite Hw in Hx; injection Hx as ->; congruence). split; [done|].
  unfold ident_of. destruct (t_fds T); [|congruence]. intros [= He]. destruct (Hf eq_refl) as [Hf1 _], (Hg eq_refl) as [Hg1 _]. rewrite He, Hg1 in Hf1. congruence.
Qed.
Lemma same_set s p i w w' q : tinv s → ts_path s !! p = Some i → ts_heap s !! i = Some w → p ≠ q → same_at s (set_tw s i w') q.
Proof.
  intros Hi Hp Hw Hne.
  assert (tw_at (set_tw s i w') q = tw_at s q) as K.
  { unfold tw_at. cbn. destruct (ts_path s !! q) as [j|] eqn:Hq; [|done]. cbn. destruct (ti_path _ Hi q j Hq) as (x&Hx&_).
    destruct (ident_inj s p q i j w x Hi Hp Hw Hq Hx Hne). by rewrite lookup_insert_ne. }
  split; [done|done|]. unfold reg_at. by rewrite K.
Qed.
Lemma same_reg s p i w q r : tinv s → ts_path s !! p = Some i → ts_heap s !! i = Some w → p ≠ q →
  (∀ k, k ≠ ident_of T w → r !! k = ts_reg s !! k) → same_at s (set_reg s r) q.
Proof.
  intros Hi Hp Hw Hne Hr. split; [done|done|]. unfold reg_at. change (tw_at (set_reg s r) q) with (tw_at s q).
  destruct (tw_at s q) as [x|] eqn:Hx; [|done]. cbn. apply Hr. apply tw_at_Some in Hx as (j&Hj&Hx).
  destruct (ident_inj s p q i j w x Hi Hp Hw Hj Hx Hne). congruence.
Qed.
Lemma same_watched s p i w w' d q : tinv s → ts_path s !! p = Some i → ts_heap s !! i = Some w → tw_p w' = tw_p w → tw_fd w' = tw_fd w → p ≠ q →
  same_at s (watched_state s i w' d) q.
Proof.
  intros Hi Hp Hw H1 H2 Hne. eapply same_trans; [by eapply (same_set s p i w w')|]. unfold watched_state.
  change (ts_reg s) with (ts_reg (set_tw s i w')). eapply (same_reg _ p i w'); [by eapply tinv_set|done|apply lookup_insert|done|].
  intros k Hk. by rewrite lookup_insert_ne.
Qed.
Lemma same_unreg s p i w w' q : tinv s → ts_path s !! p = Some i → ts_heap s !! i = Some w → tw_p w' = tw_p w → tw_fd w' = tw_fd w → p ≠ q →
  same_at s (unreg_state s i w') q.
Proof.
  intros Hi Hp Hw H1 H2 Hne. eapply same_trans; [by eapply (same_set s p i w w')|]. unfold unreg_state.
  change (ts_reg s) with (ts_reg (set_tw s i w')). eapply (same_reg _ p i w'); [by eapply tinv_set|done|apply lookup_insert|done|].
  intros k Hk. by rewrite lookup_delete_ne.
Qed.
Lemma same_alloc s A w q : tinv s → same_at s (alloc s A w) q.
Proof.
  intros Hi. assert (tw_at (alloc s A w) q = tw_at s q) as K.
  { unfold tw_at. cbn. destruct (ts_path s !! q) as [j|] eqn:Hq; [|done]. cbn. destruct (ti_path _ Hi q j Hq) as (x&Hx&_).
    apply lookup_insert_ne. pose proof (heap_next s Hi). congruence. }
  split; [done|done|]. unfold reg_at. by rewrite K.
Qed.
Lemma same_recorded s A w d q : tinv s → fresh_fd A → tw_fd w = new_fd s A → ts_path s !! tw_p w = None → tw_p w ≠ q → same_at s (recorded_state s A w d) q.
Proof.
  intros Hi HA Hfd Hp Hne.
  assert (ts_path (recorded_state s A w d) !! q = ts_path s !! q) as Hq by (cbn; by rewrite lookup_insert_ne).
  assert (tw_at (recorded_state s A w d) q = tw_at s q) as K.
  { pose proof (sa_tw _ _ _ (same_alloc s A w q Hi)) as K. unfold tw_at in *. rewrite Hq. done. }
  split; [done|done|]. unfold reg_at. rewrite K. destruct (tw_at s q) as [x|] eqn:Hx; [|done]. cbn -[ident_of]. apply lookup_insert_ne.
  apply tw_at_Some in Hx as (j&Hj&Hx). destruct (ti_path _ Hi q j Hj) as (y&Hy&Hyp&Hf). rewrite Hx in Hy. injection Hy as <-.
  unfold ident_of. unfold new_fd in Hfd. destruct (t_fds T) eqn:HT; [|congruence]. intros [= He]. destruct (Hf eq_refl) as [_ Ho]. rewrite <-He, Hfd in Ho. by apply HA in Ho.
Qed.
Lemma same_del s p i w q : tinv s → ts_path s !! p = Some i → ts_heap s !! i = Some w → p ≠ q → same_at s (t_Del T s i) q.
Proof.
  intros Hi Hp Hw Hne. destruct (ti_path _ Hi p i Hp) as (w'&Hw'&Hwp&_). rewrite Hw in Hw'. injection Hw' as <-.
  assert (ts_path (t_Del T s i) !! q = ts_path s !! q) as Hq.
  { unfold t_Del. rewrite Hw. destruct (t_fds T); cbn; rewrite lookup_delete_ne; congruence. }
  assert (ts_heap (t_Del T s i) = ts_heap s) as Hh by (unfold t_Del; rewrite Hw; by destruct (t_fds T)).
  assert (tw_at (t_Del T s i) q = tw_at s q) as K by (unfold tw_at; by rewrite Hq, Hh).
  split; [done|done|]. unfold reg_at. rewrite K. destruct (tw_at s q) as [x|] eqn:Hx; [|done]. cbn [mbind option_bind].
  apply tw_at_Some in Hx as (j&Hj&Hx). destruct (ident_inj s p q i j w x Hi Hp Hw Hj Hx Hne) as [_ Hid].
  unfold t_Del. rewrite Hw. unfold ident_of in *. destruct (t_fds T); cbn; [|done]. by apply lookup_delete_ne.
Qed.
Lemma singlewatch_same s A p e m d s' r q : tinv s → fresh_fd A → singlewatch T s A p e m d = (s', r) → p ≠ q → same_at s s' q.
Proof.
  intros Hi HA H Hne. destruct (ts_path s !! p) as [i|] eqn:Hp.
  - destruct (ti_path _ Hi p i Hp) as (w&Hw&Hwp&_). rewrite (singlewatch_known s A p e m d i w Hi Hp Hw) in H.
    destruct (a_watch A p); apply pair_equal_spec in H as [<- _].
    + eapply same_watched; [done..|apply add_role_p|apply add_role_fd|done].
    + by eapply same_set.
    + by eapply same_set.
  - rewrite (singlewatch_new s A p e m d Hp) in H. destruct (opens A p); [|apply pair_equal_spec in H as [<- _]; apply same_refl..].
    cbv zeta in H. destruct (a_watch A p); apply pair_equal_spec in H as [<- _]; [|by apply same_alloc..].
    apply same_recorded; [done|done|by rewrite add_role_fd|by rewrite add_role_p|by rewrite add_role_p].
Qed.
Lemma singleunwatch_same s A p m s' r q : tinv s → singleunwatch T s A p m = (s', r) → p ≠ q → same_at s s' q.
Proof.
  intros Hi H Hne. destruct (ts_path s !! p) as [i|] eqn:Hp.
  - destruct (ti_path _ Hi p i Hp) as (w&Hw&Hwp&_). rewrite (singleunwatch_known s A p m i w Hi Hp Hw) in H. cbv zeta in H.
    assert (same_at s (set_tw s i (clear_role m w)) q) as K1 by (by eapply same_set).
    assert (same_at s (unreg_state s i (clear_role m w)) q) as K2 by (eapply same_unreg; [done..|apply clear_role_p|apply clear_role_fd|done]).
    assert (tinv (unreg_state s i (clear_role m w))) as K3 by (eapply unreg_inv; [done..|apply clear_role_p|apply clear_role_fd]).
    assert (ts_heap (unreg_state s i (clear_role m w)) !! i = Some (clear_role m w)) as Hw' by apply lookup_insert.
    destruct (a_unwatch A p); [|apply pair_equal_spec in H as [<- _]; done..].
    destruct (ts_reg s !! ident_of T w); [|apply pair_equal_spec in H as [<- _]; done].
    destruct (nonzero (tw_e (clear_role m w))).
    + destruct (a_watch A p); apply pair_equal_spec in H as [<- _]; [|done|done].
      eapply same_trans; [exact K2|]. eapply (same_watched _ p); [done|done|exact Hw'|done|done|done].
    + apply pair_equal_spec in H as [<- _]. eapply same_trans; [exact K2|]. eapply (same_del _ p); [done|done|exact Hw'|done].
  - unfold singleunwatch in H. rewrite Hp in H. apply pair_equal_spec in H as [<- _]. apply same_refl.
Qed.
End tab.
