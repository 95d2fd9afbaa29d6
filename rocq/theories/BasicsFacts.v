(** * BasicsFacts: history-level proofs for watchpoints and channels *)
From Verif Require Import Base Event Watchpoint WatchpointFacts Paths PathsFacts Spec.
Local Open Scope N_scope.

Lemma wrun_snoc P ops o : wrun P (ops ++ [o]) = wstep P (wrun P ops) o.
Proof. unfold wrun. by rewrite foldl_app. Qed.
Lemma wanted_snoc ops o k i : wanted (ops ++ [o]) k i = wanted_step k i (wanted ops k i) o.
Proof. unfold wanted. by rewrite foldl_app. Qed.
Lemma wops_ok_snoc ops o : wops_ok (ops ++ [o]) ↔ wops_ok ops ∧ wop_key o ≠ KNil.
Proof. unfold wops_ok. rewrite Forall_app, Forall_singleton. done. Qed.

Lemma wrun_agg P ops : wops_ok ops → agg_ok P (wrun P ops).
Proof.
  induction ops as [|o ops IH] using rev_ind; intros H; [apply agg_ok_empty|].
  apply wops_ok_snoc in H as [H1 H2]. rewrite wrun_snoc.
  destruct o; cbn in *; [apply agg_ok_wadd; auto|by apply wdel_agg].
Qed.
Lemma wrun_wanted P ops k i :
  wops_ok ops → k ≠ KNil → (has (wget (wrun P ops) k) i ↔ wanted ops k i = true).
Proof.
  intros H Hk. induction ops as [|o ops IH] using rev_ind.
  - unfold wrun, wanted; simpl. unfold wget. rewrite lookup_empty. simpl.
    split; [intros Hx; by apply has_0 in Hx|done].
  - apply wops_ok_snoc in H as [H1 H2]. specialize (IH H1).
    rewrite wrun_snoc, wanted_snoc. destruct o as [k' e|k' e]; cbn in *.
    + rewrite wadd_wget by done. rewrite orb_true_iff, andb_true_iff, bool_decide_eq_true.
      case_bool_decide as E.
      * subst. rewrite has_lor, IH. unfold has. naive_solver.
      * rewrite IH. naive_solver.
    + rewrite wdel_wget by done. rewrite andb_true_iff, negb_true_iff, andb_false_iff, bool_decide_eq_false.
      case_bool_decide as E.
      * subst. rewrite has_ldiff, IH. unfold has.
        destruct (N.testbit e i); naive_solver.
      * rewrite IH. naive_solver.
Qed.
Lemma wanted_nil_false ops i : wops_ok ops → wanted ops KNil i = false.
Proof.
  induction ops as [|o ops IH] using rev_ind; intros H; [done|].
  apply wops_ok_snoc in H as [H1 H2]. rewrite wanted_snoc, IH by done.
  destruct o; simpl in *; [|done]. by rewrite bool_decide_false.
Qed.
Lemma wrun_total P ops i : wops_ok ops → (has (total P (wrun P ops)) i ↔ visible P ops i).
Proof.
  intros H. unfold total, visible. rewrite has_ldiff, has_others_get.
  apply and_iff_compat_r. split.
  - intros (k&Hk&Hb). exists k. by apply (wrun_wanted P).
  - intros (k&Hb). destruct (decide (k = KNil)) as [->|Hk].
    + by rewrite wanted_nil_false in Hb.
    + exists k. split; [done|]. by apply wrun_wanted.
Qed.
(** Present entries of a reachable watchpoint (used for emptiness statements). *)
Lemma agg_absent P wp : agg_ok P wp → (wp !! KNil = None ↔ ∀ k, wp !! k = None).
Proof.
  intros Hok. split.
  - intros H k. destruct (decide (k = KNil)) as [->|Hk]; [done|].
    unfold agg_ok in Hok. rewrite H in Hok. case_bool_decide as E; [|done].
    rewrite <-(lookup_delete_ne wp KNil k), E by done. done.
  - auto.
Qed.

(** ** Channels *)
Definition chan_inv (cap : nat) (ch : chan) (ob : cobs) : Prop :=
  ch_cap ch = cap ∧ (length (ch_buf ch) ≤ cap)%nat ∧
  (ch_waiting ch ≠ 0%nat → ch_buf ch = []) ∧
  c_sent ob = c_got ob ++ ch_buf ch.
Lemma crun_inv cap ops : chan_inv cap (crun cap ops).1 (crun cap ops).2.
Proof.
  induction ops as [|o ops IH] using rev_ind.
  - unfold chan_inv; simpl. repeat split; auto. lia.
  - unfold crun in *. rewrite foldl_app. simpl.
    destruct (foldl cstep _ ops) as [ch ob]. unfold chan_inv in *. simpl in IH.
    destruct IH as (Hc&Hl&Hw&Hs). destruct o as [ei|]; simpl.
    + unfold try_send. destruct (ch_waiting ch) as [|n] eqn:E; simpl.
      * destruct (Nat.ltb_spec (length (ch_buf ch)) (ch_cap ch)); simpl.
        -- rewrite app_length; simpl. repeat split; try done; [lia|].
           by rewrite Hs, app_assoc.
        -- repeat split; try done.
      * rewrite Hw in * by done. simpl. repeat split; try done.
        rewrite Hs, !app_nil_r. done.
    + unfold recv. destruct (ch_buf ch) as [|x l] eqn:E; simpl.
      * repeat split; try done.
      * simpl in Hl. repeat split; try done; [lia| |].
        -- intros Hne. specialize (Hw Hne). done.
        -- rewrite Hs, <-app_assoc. done.
Qed.
