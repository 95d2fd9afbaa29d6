(** * TriggerClose: Close of the kqueue and FEN watcher, the monitor goroutine, the receiver
    of the events and other callers, interleaved. *)
From Verif Require Import Base.

(** The goroutine that calls Close (/repo/watcher_trigger.go:118-141): before Lock, before
    Stop, receiving from t.s, unwatching and closing, returned. *)
Inductive cpc := CLock | CStop | CRecv | CClean | CRet.
#[global] Instance cpc_eq_dec : EqDecision cpc.
Proof. solve_decision. Defined.
(** The monitor goroutine (/repo/watcher_trigger.go:399-416) with process (line 419) and
    send (line 144): not started, in Wait, with an event and before Lock, in process,
    sending [n] events, sending to t.s, returned. *)
Inductive mpc := MNone | MWait | MLock | MProc | MSend (n : nat) | MStop | MExit.
Inductive holder := HClose | HMon | HOther.
(** [pend]: file events the OS has for the monitor; [stop]: so has it the stop request
    (the pipe of kqueue, the alert of FEN); [sq]: length of t.s (capacity 1,
    /repo/watcher_trigger.go:104); [out]: length of t.c. *)
Record cstate := CS { cc : cpc; mc : mpc; lk : option holder; pend : nat; stop : bool; sq : nat; out : nat }.

Section close.
(** Capacity of t.c (/repo/tree.go:7,16) *)
Context (cap : nat).
(** Who makes a step.  Simplifications: the unwatching of Close (lines 126-139) is one
    step; interrupted Waits (EINTR) and failed ones, after which monitor waits again, are
    left out; Wait returns any of what is pending. *)
Inductive actor := Closer | Monitor | Receiver | Others | System.
Inductive cstep : actor → cstate → cstate → Prop :=
  | SLock m p q s o : cstep Closer (CS CLock m None p q s o) (CS CStop m (Some HClose) p q s o)
  | SStop m h p q s o : cstep Closer (CS CStop m h p q s o) (CS CRecv m h p true s o)
  (* Stop fails: Close unlocks and returns *)
  | SStopErr m h p q s o : cstep Closer (CS CStop m h p q s o) (CS CRet m None p q s o)
  | SRecv m h p q s o : cstep Closer (CS CRecv m h p q (S s) o) (CS CClean m h p q s o)
  | SClean m h p q s o : cstep Closer (CS CClean m h p q s o) (CS CRet m None p q s o)
  | SWaitFile c h p q s o : cstep Monitor (CS c MWait h (S p) q s o) (CS c MLock h p q s o)
  | SWaitStop c h p s o : cstep Monitor (CS c MWait h p true s o) (CS c MStop h p true s o)
  | SMonLock c p q s o : cstep Monitor (CS c MLock None p q s o) (CS c MProc (Some HMon) p q s o)
  | SProc c h p q s o n : cstep Monitor (CS c MProc h p q s o) (CS c (MSend n) None p q s o)
  | SSend c h p q s o n : o < cap → cstep Monitor (CS c (MSend (S n)) h p q s o) (CS c (MSend n) h p q s (S o))
  | SSent c h p q s o : cstep Monitor (CS c (MSend 0) h p q s o) (CS c MWait h p q s o)
  | SStopped c h p q o : cstep Monitor (CS c MStop h p q 0 o) (CS c MExit h p q 1 o)
  (* dispatch of the trees receives whenever it can: it starts a goroutine per event
     (/repo/tree_nonrecursive.go:34-37) *)
  | SReceive c m h p q s o : cstep Receiver (CS c m h p q s (S o)) (CS c m h p q s o)
  (* Watch, Unwatch, Rewatch (/repo/watcher_trigger.go:261,273,287) *)
  | SOtherLock c m p q s o : cstep Others (CS c m None p q s o) (CS c m (Some HOther) p q s o)
  | SOtherUnlock c m p q s o : cstep Others (CS c m (Some HOther) p q s o) (CS c m None p q s o)
  | SFile c m h p q s o : cstep System (CS c m h p q s o) (CS c m h (S p) q s o).
(** newWatcher starts the monitor (/repo/watcher_trigger.go:113), unless Init fails (line
    109): then it calls Close. *)
Definition cinit (started : bool) : cstate := CS CLock (if started then MWait else MNone) None 0 false 0 0.
Inductive csteps (ok : actor → Prop) : nat → cstate → cstate → Prop :=
  | csteps_0 s : csteps ok 0 s s
  | csteps_S n a s s' s'' : ok a → cstep a s s' → csteps ok n s' s'' → csteps ok (S n) s s''.
Definition anybody (a : actor) : Prop := True.
Definition nofiles (a : actor) : Prop := a ≠ System.

(** ** The deadlock *)
Lemma csteps_trans ok n m s1 s2 s3 : csteps ok n s1 s2 → csteps ok m s2 s3 → csteps ok (n + m) s1 s3.
Proof. induction 1 as [|k a s s' s'' ? ? ? IH]; intros Hm; [done|]. cbn. econstructor; eauto. Qed.
Definition stuck (s : cstate) : Prop := cc s = CRecv ∧ mc s = MLock ∧ lk s = Some HClose ∧ sq s = 0.
Lemma stuck_step a s s' : stuck s → cstep a s s' → stuck s'.
Proof. intros (H1&H2&H3&H4) H. destruct H; cbn in *; try discriminate; done. Qed.
Lemma stuck_steps ok n s s' : stuck s → csteps ok n s s' → stuck s'.
Proof. intros H. induction 1 as [|? ? ? ? ? ? Hs _ IH]; [done|]. apply IH. by eapply stuck_step. Qed.
Definition unstarted (s : cstate) : Prop := cc s = CRecv ∧ mc s = MNone ∧ sq s = 0.
Lemma unstarted_step a s s' : unstarted s → cstep a s s' → unstarted s'.
Proof. intros (H1&H2&H4) H. destruct H; cbn in *; try discriminate; done. Qed.
Lemma unstarted_steps ok n s s' : unstarted s → csteps ok n s s' → unstarted s'.
Proof. intros H. induction 1 as [|? ? ? ? ? ? Hs _ IH]; [done|]. apply IH. by eapply unstarted_step. Qed.

(** ** Without file events *)
Definition cw (c : cpc) : nat := match c with CLock => 4 | CStop => 3 | CRecv => 2 | CClean => 1 | CRet => 0 end.
Definition mw (m : mpc) : nat := match m with MNone | MLock | MProc => 0 | MSend n => 3 + 2 * n | MWait => 2 | MStop => 1 | MExit => 0 end.
Definition weight (s : cstate) : nat := cw (cc s) + mw (mc s) + out s.
(** Close has the lock, the monitor has no file event. *)
Definition sending (m : mpc) : Prop := m = MWait ∨ ∃ n, m = MSend n.
Definition quiet (s : cstate) : Prop :=
  match cc s with
  | CLock => False
  | CStop => lk s = Some HClose ∧ pend s = 0 ∧ stop s = false ∧ sq s = 0 ∧ sending (mc s)
  | CRecv => lk s = Some HClose ∧ pend s = 0 ∧ stop s = true ∧ ((sq s = 0 ∧ (sending (mc s) ∨ mc s = MStop)) ∨ (sq s = 1 ∧ mc s = MExit))
  | CClean => lk s = Some HClose ∧ mc s = MExit
  | CRet => True
  end.
Lemma quiet_step a s s' : nofiles a → quiet s → cc s ≠ CRet → cstep a s s' → quiet s' ∧ weight s' < weight s.
Proof.
  unfold nofiles, quiet, sending, weight. intros Ha Q Hc H.
  destruct H; cbn in *; try done;
    repeat match goal with
    | c : cpc |- _ => destruct c; cbn in *; try done
    end;
    repeat match goal with
    | Q : _ ∧ _ |- _ => destruct Q
    | Q : _ ∨ _ |- _ => destruct Q
    | Q : ∃ _, _ |- _ => destruct Q
    end; simplify_eq/=; (split; [|lia]); eauto 10.
Qed.
Lemma quiet_go s : 0 < cap → quiet s → cc s ≠ CRet → ∃ a s', nofiles a ∧ cstep a s s'.
Proof.
  intros Hcap Q Hc. destruct s as [c m h p q sc o]. unfold quiet, sending in Q. cbn in *. unfold nofiles.
  destruct c; cbn in *; try done.
  - exists Closer. eexists. split; [done|]. apply SStop.
  - destruct Q as (->&->&->&[[-> [[->|[n ->]]| ->]]|[-> ->]]).
    + exists Monitor. eexists. split; [done|]. apply SWaitStop.
    + destruct n as [|n]; [exists Monitor; eexists; split; [done|]; apply SSent|].
      destruct o as [|o]; [|exists Receiver; eexists; split; [done|]; apply SReceive].
      exists Monitor. eexists. split; [done|]. by apply SSend.
    + exists Monitor. eexists. split; [done|]. apply SStopped.
    + exists Closer. eexists. split; [done|]. apply SRecv.
  - exists Closer. eexists. split; [done|]. apply SClean.
Qed.
(** Steps up to the return of Close *)
Inductive uptoret : nat → cstate → cstate → Prop :=
  | uptoret_0 s : uptoret 0 s s
  | uptoret_S n a s s' s'' : nofiles a → cc s ≠ CRet → cstep a s s' → uptoret n s' s'' → uptoret (S n) s s''.
Lemma quiet_run n s s' : 0 < cap → quiet s → uptoret n s s' →
  n ≤ weight s ∧ (cc s' = CRet ∨ ∃ a s'', nofiles a ∧ cstep a s' s'').
Proof.
  intros Hcap Q. induction 1 as [s|n a s s1 s2 Ha Hc Hs _ IH].
  - split; [lia|]. destruct (decide (cc s = CRet)) as [|Hc]; [by left|right; by apply quiet_go].
  - destruct (quiet_step a s s1 Ha Q Hc Hs) as [Q1 Hw]. destruct (IH Q1) as [IH1 IH2]. split; [lia|done].
Qed.
(** What is reachable *)
Definition cinv (s : cstate) : Prop :=
  (cc s = CLock ∨ cc s = CStop → stop s = false ∧ sq s = 0 ∧ mc s ≠ MStop ∧ mc s ≠ MExit) ∧
  (cc s = CStop ∨ cc s = CRecv ∨ cc s = CClean → lk s = Some HClose) ∧
  (mc s = MProc → lk s = Some HMon) ∧ (lk s = Some HClose → mc s ≠ MProc) ∧ (mc s ≠ MNone).
Lemma cinv_init : cinv (cinit true).
Proof. unfold cinv. cbn. intuition congruence. Qed.
Lemma cinv_step a s s' : cinv s → cstep a s s' → cinv s'.
Proof.
  intros (I1&I2&I3&I4&I5) H. unfold cinv. destruct H; cbn in *; split_and!; try congruence; try tauto; intuition congruence.
Qed.
Lemma cinv_steps ok n s s' : cinv s → csteps ok n s s' → cinv s'.
Proof. intros I. induction 1 as [|? ? ? ? ? ? Hs _ IH]; [done|]. apply IH. by eapply cinv_step. Qed.
Lemma reached_quiet n s : csteps anybody n (cinit true) s → cc s = CStop → pend s = 0 → mc s ≠ MLock → quiet s.
Proof.
  intros H Hc Hp Hm. destruct (cinv_steps _ _ _ _ cinv_init H) as (I1&I2&I3&I4&I5). unfold quiet. rewrite Hc.
  destruct (I1 (or_intror Hc)) as (->&->&?&?). specialize (I2 (or_introl Hc)). split_and!; try done. unfold sending.
  destruct (mc s) eqn:E; try done; eauto. by destruct (I4 I2).
Qed.
End close.
