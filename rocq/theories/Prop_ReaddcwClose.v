(** * Closing the Windows watcher: C83 *)
From Verif Require Import Base Event Watchpoint WatchpointFacts Readdcw SpecReaddcw ReaddcwFacts ReaddcwLoop ReaddcwRun ReaddcwLife
  ReaddcwClose SpecReaddcwClose ReaddcwCloseFacts ReaddcwCloseFrozen.
Local Open Scope N_scope.

(** ** After an orderly history *)
Lemma close_called_inv tr err s : close_called tr err s →
  closing s ∧ quiet (c_rs s) ∧ quiet2 (c_rs s) ∧ held s ∧ mine err s ∧ (∀ p, is_Some (want tr p) → is_Some (rs_tab (c_rs s) !! p)) ∧
  (cwork s ≤ 3 * length (rs_queue (c_rs s)) + 5)%nat.
Proof.
  intros (s0&order&Hx&Ho&Hs). pose proof (closing_begin _ _ _ _ _ Hx Hs) as C. pose proof (cexec_started _ _ Hx) as S. destruct (cexec_before tr s0 Hx) as [B1 B2].
  remember (KClose order err) as l eqn:E. destruct Hs as [| | |order' err' Hc Hst Hord| | | |]; try discriminate E. injection E as -> ->.
  destruct (sd_start _ S Hst) as [Hport _]. split_and!; [done|by eapply quiet_close|by eapply quiet2_close|done|done|..].
  - intros p Hp. cbn [c_rs]. destruct (close_entries_spec order (c_rs s0)) as (->&_). destruct (rs_tab (c_rs s0) !! p) eqn:E; [eauto|].
    rewrite (ri_want _ _ (rdorderly_inv _ _ Ho) p E) in Hp. by destruct Hp.
  - unfold cwork. cbn [c_port c_closer c_rs]. rewrite Hport. unfold steps_left. destruct (rs_pc _); lia.
Qed.
(** From the call of Close on until the next Watch no handle is open, no read is pending, and
    the program does not panic. *)
Theorem C83_no_handles tr err s tr2 s' : close_called tr err s → csteps s tr2 s' → no_watch tr2 →
  (∀ p x, ¬ open_handle (c_rs s') p x) ∧ rs_reads (c_rs s') = [] ∧ rs_panic (c_rs s') = false.
Proof.
  intros Hc Hs Hn. destruct (close_called_inv _ _ _ Hc) as (C&Q&_). destruct (quiet_csteps _ _ _ Q C Hs Hn) as [[Q1 Q2 Q3 Q4 Q5] _].
  split_and!; [|done|done]. intros p x (g&gr&wd&Hg&Hop&_). rewrite (Q2 g gr Hg) in Hop. done.
Qed.
(** Close returns if it could post to the port, with the error of closing the handles: until
    it does something other than a call is possible, and there are only so many such steps. *)
Theorem C83_returns tr err s tr2 s' : close_called tr err s → csteps s tr2 s' → no_watch tr2 → KPosted false ∉ tr2 →
  (length (filter (λ l, is_request l = false) tr2) ≤ 3 * length (rs_queue (c_rs s)) + 5)%nat ∧
  (c_closer s' ≠ KNone → ∃ l s2, cstep s' l s2 ∧ is_request l = false ∧ l ≠ KPosted false) ∧
  (∀ e, KRet e ∈ tr2 → e = err).
Proof.
  intros Hc Hs Hn Hp. destruct (close_called_inv _ _ _ Hc) as (C&Q&_&H&M&_&W). destruct (quiet_csteps _ _ _ Q C Hs Hn) as [Q' Hl]. split_and!; [lia|..].
  - apply held_enabled; [done|]. by eapply held_steps.
  - by eapply mine_steps.
Qed.

(** ** In every execution *)
(** Once Close has returned after waiting for the loop nothing is sent until the next Watch,
    and another Close returns nil at once. *)
Theorem C83_silent tr s0 s tr2 s' : cexec tr s0 → closed_between s0 s → csteps s tr2 s' → no_watch tr2 →
  rs_sent (c_rs s') = rs_sent (c_rs s) ∧ rs_reads (c_rs s') = [] ∧ rs_queue (c_rs s') = [] ∧
  cstep s' KCloseNop s' ∧ ∀ order err s2, ¬ cstep s' (KClose order err) s2.
Proof.
  intros Hx Hcl Hs Hn. destruct (closed_state _ _ _ Hx Hcl) as (C&Hp&Hk&_). destruct (silent_steps _ _ _ C Hp Hs Hn) as [Hp' Hsent]. pose proof (closing_steps _ _ _ C Hs Hn) as C'.
  destruct (cg_none _ C' Hp') as (N1&N2&_). pose proof (cg_start _ C') as Hst. split_and!; try done.
  - constructor; [|done]. clear - Hk Hs Hn C. induction Hs as [s|s tr s1 l s2 Hs IH Hl]; [done|]. apply Forall_app in Hn as [H1 H2]. pose proof (closing_steps _ _ _ C Hs H1) as C1. specialize (IH H1 C Hk).
    destruct Hl as [| | |? ? ? Hst| | | |]; cbn [c_closer with_closer]; try done; try congruence. pose proof (cg_start _ C1). congruence.
  - intros order err s2 H. remember (KClose order err) as l eqn:E. destruct H; try discriminate E. congruence.
Qed.
(** Close does not reset the watcher.  The directories that are in the table when it returns
    stay there, and are dead. *)
Theorem C83_reset_refuted tr s0 s p : cexec tr s0 → closed_between s0 s → is_Some (rs_tab (c_rs s) !! p) → dead_forever s p.
Proof.
  intros Hx Hcl Hp. destruct (closed_state _ _ _ Hx Hcl) as (C&Hport&_&tr1&Hx1). pose proof (cexec_ask _ _ Hx1) as A. pose proof (frozen_begin _ _ A C Hport) as Fz.
  intros tr2 s' Hs. destruct (frozen_csteps _ _ _ _ _ _ A Fz Hs) as (Fz'&out&E&HF). destruct Hp as [i Hi]. destruct (fz_F _ _ _ Fz' p i Hi) as (_&Ht&x&Hx'&Hm).
  assert (nonState (c_rs s') p = None) as Hns by (unfold nonState; by rewrite Ht, Hx', Hm). split_and!.
  - intros e k ok0 ok1 res s2 He H. remember (KStep (LReq (QWatch p e k) ok0 ok1 res)) as l eqn:El. destruct H as [l r _ Hr _| | | | | | |]; try discriminate El. injection El as ->.
    remember (LReq (QWatch p e k) ok0 ok1 res) as l eqn:El. destruct Hr as [q ok0' ok1' r' res' Hq| | | |]; try discriminate El.
    assert (q = QWatch p e k) as -> by congruence. assert (res' = res) as -> by congruence. cbn [rd_request] in Hq. unfold rd_watch in Hq. rewrite He, Ht, Hx' in Hq. cbn [N.eqb negb] in Hq.
    apply pair_equal_spec in Hq as [<- <-]. done.
  - intros q ok0 ok1 res s2 Hq H. remember (KStep (LReq q ok0 ok1 res)) as l eqn:El. destruct H as [l r _ Hr _| | | | | | |]; try discriminate El. injection El as ->.
    remember (LReq q ok0 ok1 res) as l eqn:El. destruct Hr as [q' ok0' ok1' r' res' Hr| | | |]; try discriminate El.
    assert (q' = q) as -> by congruence. assert (res' = res) as -> by congruence. destruct Hq as [->|(old&new&k&->)]; cbn [rd_request] in Hr; [unfold rd_unwatch in Hr|unfold rd_rewatch in Hr]; rewrite Hns in Hr.
    + by apply pair_equal_spec in Hr as [_ <-].
    + destruct (nonzero _); by apply pair_equal_spec in Hr as [_ <-].
  - eapply frozen_busy; [exact Fz'|eauto].
  - exists out. split; [done|]. eapply Forall_impl; [exact HF|]. intros ev Hev. cbn beta in Hev. intros Ed. rewrite Ed in Hev. congruence.
Qed.
(** After an orderly history these are all the directories that were to be watched. *)
Theorem C83_watched_refuted tr err s tr2 s2 err' s' p : close_called tr err s → csteps s tr2 s2 → no_watch tr2 → cstep s2 (KRet err') s' →
  is_Some (want tr p) → dead_forever s' p.
Proof.
  intros Hc Hs Hn Hr Hp. destruct (close_called_inv _ _ _ Hc) as (C&Q&Q2&_&_&T&_). pose proof Hc as (s0&order&Hx&_&Hcl).
  eapply (C83_reset_refuted (KStep <$> tr) s0); [done|exists order, err, s, tr2, err', s2; done|]. destruct (T p Hp) as [i Hi]. exists i.
  rewrite <-Hi, <-(kept_csteps _ _ _ Q Q2 C Hs Hn). remember (KRet err') as l eqn:E. by destruct Hr; try discriminate E.
Qed.
(** If posting fails after an error of closing a handle Close never returns. *)
Theorem C83_hang_refuted tr s s1 tr2 s2 : cexec tr s → cstep s (KPosted false) s1 → c_closer s1 ≠ KNone → csteps s1 tr2 s2 → c_closer s2 = c_closer s1.
Proof.
  intros Hx Hs Hc Hs2. pose proof (cexec_started _ _ Hx) as S.
  assert ((∃ e, c_closer s1 = KWait e) ∧ c_keys s1 = 0%nat ∧ (1 ≤ c_wg s1)%nat) as ([e He]&Hk&Hw).
  { remember (KPosted false) as l eqn:E. destruct Hs as [| | | | |err Hp| |]; try discriminate E. destruct (sd_post _ S err Hp) as (_&_&K). cbn [c_closer c_keys c_wg] in *.
    destruct err; [|done]. split_and!; [eauto|done|lia]. }
  rewrite He in *. cut (c_closer s2 = KWait e ∧ c_keys s2 = 0%nat ∧ (1 ≤ c_wg s2)%nat); [by intros []|]. clear - Hs2 He Hk Hw.
  induction Hs2 as [s|s tr s1 l s2 Hs IH Hl]; [done|]. destruct (IH He Hk Hw) as (I1&I2&I3).
  destruct Hl; cbn [c_closer c_keys c_wg with_closer]; try done; try congruence. lia.
Qed.

(** ** Running the watcher *)
Definition portlessb (l : rlabel) : bool :=
  match l with LReq (QUnwatch _) there ok _ => there || negb ok | LReq _ _ _ _ => true | _ => false end.
Definition cnext (s : cstate) (l : clabel) : option cstate :=
  match l with
  | KStep l =>
      if rs_panic (c_rs s) || negb (c_port s || portlessb l) then None
      else match rdnext (c_rs s) l with
           | Some r => let new := inits (c_rs s) l && negb (c_port s) in Some (CS r (c_start s || new) (c_port s || new) (c_keys s) (c_wg s) (c_closer s))
           | None => None
           end
  | KNoPort p e k => if inits (c_rs s) (LReq (QWatch p e k) true true false) && negb (c_port s) then Some s else None
  | KCloseNop => match c_closer s with KNone => if c_start s then None else Some s | _ => None end
  | KClose order err =>
      match c_closer s with
      | KNone => if c_start s && bool_decide (order = (map_to_list (rs_tab (c_rs s))).*2)
                 then Some (CS (close_entries (c_rs s) order) false (c_port s) (c_keys s) (c_wg s) (KPost err)) else None
      | _ => None
      end
  | KPosted true =>
      match c_closer s with
      | KPost err => if c_port s then Some (CS (c_rs s) (c_start s) (c_port s) (S (c_keys s)) (S (c_wg s)) (KWait err)) else None
      | _ => None
      end
  | KPosted false =>
      match c_closer s with KPost err => Some (CS (c_rs s) (c_start s) (c_port s) (c_keys s) (S (c_wg s)) (if err then KWait err else KNone)) | _ => None end
  | KExit =>
      match rs_pc (c_rs s), c_keys s, c_wg s with
      | PWait, S _, S m => if c_port s then Some (CS (set_io (c_rs s) [] []) (c_start s) false 0 m (c_closer s)) else None
      | _, _, _ => None
      end
  | KRet err => match c_closer s, c_wg s with KWait e, O => if Bool.eqb e err then Some (with_closer s KNone) else None | _, _ => None end
  end.
Lemma cnext_step s l s' : cnext s l = Some s' → cstep s l s'.
Proof.
  destruct l as [l|p e k|order err| |[|]| |err]; cbn [cnext].
  - destruct (rs_panic (c_rs s)) eqn:Hp; [done|]. destruct (negb _) eqn:Hl; cbn [orb]; [done|]. destruct (rdnext (c_rs s) l) as [r|] eqn:Hr; [|done]. intros [= <-].
    apply k_step; [done|by apply rdnext_step|]. intros Hport. rewrite Hport in Hl. apply negb_false_iff in Hl. cbn [orb] in Hl. destruct l as [[]| | | |]; try done.
    cbn in Hl |- *. apply orb_prop in Hl as [?|?%negb_true_iff]; auto.
  - destruct (inits _ _) eqn:Hi; [|done]. destruct (c_port s) eqn:Hp; [done|]. intros [= <-]. by apply k_noport.
  - destruct (c_closer s) eqn:Hc; try done. destruct (c_start s) eqn:Hs; [|done]. destruct (bool_decide _) eqn:Ho; [|done]. apply bool_decide_eq_true in Ho. intros [= <-].
    apply k_close; [done|done|]. by rewrite Ho.
  - destruct (c_closer s) eqn:Hc; try done. destruct (c_start s) eqn:Hs; [done|]. intros [= <-]. by apply k_nop.
  - destruct (c_closer s) eqn:Hc; try done. destruct (c_port s) eqn:Hp; [|done]. intros [= <-]. pose proof (k_post s err Hc Hp) as K. by rewrite Hp in K.
  - destruct (c_closer s) eqn:Hc; try done. intros [= <-]. by apply k_nopost.
  - destruct (rs_pc (c_rs s)) eqn:Hpc; try done. destruct (c_keys s) eqn:Hk; [done|]. destruct (c_wg s) eqn:Hw; [done|]. destruct (c_port s) eqn:Hp; [|done]. intros [= <-]. by eapply k_exit.
  - destruct (c_closer s) eqn:Hc; try done. destruct (c_wg s) eqn:Hw; [|done]. destruct (Bool.eqb err0 err) eqn:He; [|done]. apply Bool.eqb_prop in He as ->. intros [= <-]. by apply k_ret.
Qed.
Fixpoint crun (s : cstate) (tr : list clabel) : option cstate :=
  match tr with [] => Some s | l :: tr => match cnext s l with Some s' => crun s' tr | None => None end end.
Lemma crun_steps tr : ∀ s s', crun s tr = Some s' → csteps s tr s'.
Proof.
  induction tr as [|l tr IH]; intros s s'; cbn [crun]; [intros [= <-]; constructor|]. destruct (cnext s l) as [s1|] eqn:E; [|done]. intros H.
  apply (csteps_app s [l] s1 tr s'); [by apply csteps_one, cnext_step|by apply IH].
Qed.
Definition cfinal (s : cstate) (tr : list clabel) : cstate := default s (crun s tr).
Definition cruns (s : cstate) (tr : list clabel) : bool := match crun s tr with Some _ => true | None => false end.
Lemma cfinal_steps s tr : cruns s tr = true → csteps s tr (cfinal s tr).
Proof. unfold cruns, cfinal. destruct (crun s tr) as [s'|] eqn:E; [|done]. intros _. by apply crun_steps. Qed.
Lemma cfinal_step s l : cruns s [l] = true → cstep s l (cfinal s [l]).
Proof. unfold cruns, cfinal. cbn [crun]. destruct (cnext s l) as [s'|] eqn:E; [|done]. intros _. by apply cnext_step. Qed.

(** Two directories; an event has been reported for one, and the other is being rewatched,
    when Close is called.  It posts; the loop serves what is waiting, sends the event, and
    ends. *)
Definition dirA : str := b "C:\A".
Definition dirB : str := b "C:\B".
Definition evA : list fninfo := [FN FILE_ACTION_ADDED (b "x")].
Definition trC : list rlabel :=
  [LReq (QWatch dirA (Create readdcw) false) true true true; LReq (QWatch dirB (Write readdcw) true) true true true;
   LData 1 evA; LReq (QRewatch dirB (Write readdcw) (Rename readdcw) true) true true true].
Definition s0C : cstate := cfinal cs_init (KStep <$> trC).
Definition orderC : list nat := (map_to_list (rs_tab (c_rs s0C))).*2.
Definition s1C : cstate := cfinal s0C [KClose orderC false].
Definition trD : list clabel :=
  [KPosted true; KStep (LTake 1 evA); KStep (LReq (QUnwatch dirA) true true false); KStep (LRead 1 true); KStep (LState 1 true true);
   KStep (LTake 4 []); KStep (LRead 4 true); KStep (LState 4 true true); KExit].
Definition s2C : cstate := cfinal s1C trD.
Definition s3C : cstate := cfinal s2C [KRet false].
Example C83_ex_called : close_called trC false s1C.
Proof.
  exists s0C, orderC. split_and!; [apply cfinal_steps; by vm_compute| |apply cfinal_step; by vm_compute].
  assert (c_rs s0C = rdfinal true trC) as -> by (by vm_compute). apply rdfinal_orderly. by vm_compute.
Qed.
Example C83_ex_before : open_handle (c_rs s0C) dirA (FileNotifyChangeFileName, false) ∧ length (rs_queue (c_rs s1C)) = 3%nat.
Proof. split; [exists 1%nat; eexists _, _; split_and!; by vm_compute|by vm_compute]. Qed.
Example C83_ex_steps : csteps s1C trD s2C ∧ no_watch trD ∧ KPosted false ∉ trD ∧ cstep s2C (KRet false) s3C ∧
  rs_sent (c_rs s3C) = [RdEvent dirA (b "x") fTypeFile (Create readdcw)].
Proof.
  split_and!; [apply cfinal_steps; by vm_compute|unfold no_watch, trD; repeat (apply Forall_cons_2; [done|]); apply Forall_nil_2|
    unfold trD; repeat (apply not_elem_of_cons; split; [done|]); apply not_elem_of_nil|apply cfinal_step; by vm_compute|by vm_compute].
Qed.
(** The premises of [C83_watched_refuted] and [C83_silent] hold here: both directories are dead
    from now on. *)
Example C83_ex_dead : dead_forever s3C dirA ∧ dead_forever s3C dirB ∧ cexec (KStep <$> trC) s0C ∧ closed_between s0C s3C.
Proof.
  destruct C83_ex_steps as (H1&H2&_&H3&_).
  split_and!; [eapply C83_watched_refuted; [exact C83_ex_called|exact H1|exact H2|exact H3|by vm_compute; eauto]..|apply cfinal_steps; by vm_compute|].
  exists orderC, false, s1C, trD, false, s2C. split_and!; [apply cfinal_step; by vm_compute|done..].
Qed.
(** A Watch of one of them after Close: nil, and no handle; of another directory: a new port,
    and a handle. *)
Example C83_ex_after : let s4 := cfinal s3C [KStep (LReq (QWatch dirA (Create readdcw) false) true true true)] in
  let s5 := cfinal s4 [KStep (LReq (QWatch (b "C:\D") (Write readdcw) false) true true true)] in
  csteps s3C [KStep (LReq (QWatch dirA (Create readdcw) false) true true true); KStep (LReq (QWatch (b "C:\D") (Write readdcw) false) true true true)] s5 ∧
  c_port s4 = false ∧ rs_reads (c_rs s4) = [] ∧ c_port s5 = true ∧ length (rs_reads (c_rs s5)) = 1%nat.
Proof. intros s4 s5. split_and!; [apply crun_steps; by vm_compute|by vm_compute..]. Qed.
(** Closing a handle fails and posting fails. *)
Example C83_ex_hang : let s1 := cfinal s0C [KClose orderC true] in let s2 := cfinal s1 [KPosted false] in
  cexec ((KStep <$> trC) ++ [KClose orderC true]) s1 ∧ cstep s1 (KPosted false) s2 ∧ c_closer s2 = KWait true.
Proof.
  intros s1 s2. split_and!; [|apply cfinal_step; by vm_compute|by vm_compute].
  eapply csteps_app; [apply (cfinal_steps cs_init); by vm_compute|apply cfinal_steps; by vm_compute].
Qed.
(** A Watch between the part of Close under the lock and the end of the loop: it returns nil
    and its handle stays open, on a port that is no longer served; Close returns nil, and
    calling it again does nothing. *)
Theorem C83_concurrent_watch_refuted :
  ∃ tr s, cexec tr s ∧
    tr = (KStep <$> trC) ++ [KClose orderC false; KStep (LReq (QWatch (b "C:\D") (Write readdcw) false) true true true); KPosted true; KExit; KRet false] ∧
    open_handle (c_rs s) (b "C:\D") (FileNotifyChangeAttributes .| FileNotifyChangeSize .| FileNotifyChangeCreation .| FileNotifyChangeSecurity, false) ∧
    c_port s = false ∧ ¬ busy (c_rs s) (b "C:\D") ∧ cstep s KCloseNop s.
Proof.
  eexists _, (cfinal cs_init ((KStep <$> trC) ++ [KClose orderC false; KStep (LReq (QWatch (b "C:\D") (Write readdcw) false) true true true); KPosted true; KExit; KRet false])).
  split_and!; [apply cfinal_steps; by vm_compute|done|exists 6%nat; eexists _, _; split_and!; by vm_compute|by vm_compute| |apply k_nop; by vm_compute].
  intros (g&gr&wd&H&_). vm_compute in H. destruct H as [(r&Hr&_)|[H|[H|H]]]; [by apply elem_of_nil in Hr|by apply elem_of_nil in H|done|done].
Qed.

Print Assumptions C83_no_handles.
Print Assumptions C83_returns.
Print Assumptions C83_silent.
Print Assumptions C83_reset_refuted.
Print Assumptions C83_watched_refuted.
Print Assumptions C83_hang_refuted.
Print Assumptions C83_concurrent_watch_refuted.
