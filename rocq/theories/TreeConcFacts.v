(** * TreeConcFacts: invariants of the runs of the goroutines of a tree *)
From Verif Require Import Base Event Watchpoint Paths Loop Node NonRec SpecNonRec SpecNonRecOS Rec SpecRec
  NonRecStop TreeConc SpecTreeConc.
Local Open Scope N_scope.

Section facts.
Context (T : tree_ops) (env_good : env → Prop) (call_ok : nop → Prop) (ev_ok : event_info → Prop).
Notation step := (step T env_good call_ok ev_ok).
Notation run := (run T env_good call_ok ev_ok).

Lemma run_snoc_inv ls l c : run (ls ++ [l]) c → ∃ c0, run ls c0 ∧ step c0 l c.
Proof.
  intros H. inversion H as [Hn|ls' c0 l' c' Hr Hs Heq].
  - by destruct ls.
  - apply app_inj_tail in Heq as [-> ->]. eauto.
Qed.
Lemma run_prefix a x b c : run (a ++ x :: b) c → ∃ c1 c2, run a c1 ∧ step c1 x c2.
Proof.
  revert c. induction b as [|y b IH] using rev_ind; intros c Hr.
  - apply run_snoc_inv in Hr as (c0&?&?). eauto.
  - change (a ++ x :: b ++ [y]) with (a ++ (x :: b) ++ [y]) in Hr. rewrite app_assoc in Hr.
    apply run_snoc_inv in Hr as (c0&Hr&_). eauto.
Qed.

(** ** The lock *)
Definition wlocked (pc : wpc) : Prop := match pc with WWait | WHold | WLeft _ => True | _ => False end.
Definition wexcl (pc : wpc) : Prop := match pc with WHold | WLeft _ => True | _ => False end.
Definition tpc (t : thr) : option wpc := match t with TCall _ pc => Some pc | _ => None end.
Definition ipc (t : ithr) : option wpc := match t with IProc _ pc => Some pc | _ => None end.
Definition hpc (c : cfg) (h : holder) : option wpc :=
  match h with HCall i => c_thr c !! i ≫= tpc | HInt => ipc (c_int c) end.
Definition locked (o : option wpc) : Prop := match o with Some pc => wlocked pc | None => False end.
Definition excl (o : option wpc) : Prop := match o with Some pc => wexcl pc | None => False end.
Lemma excl_locked o : excl o → locked o.
Proof. by destruct o as [[]|]. Qed.
Record linv (c : cfg) : Prop := {
  li_lock : ∀ h, c_lock c = Some h ↔ locked (hpc c h);
  li_excl : ∀ h, excl (hpc c h) → no_readers c;
  li_fresh : ∀ i, (c_next c ≤ i)%nat → c_thr c !! i = None;
}.
#[local] Instance holder_eq : EqDecision holder.
Proof. solve_decision. Defined.

Lemma linv_upd c c' h0 opc :
  linv c → (∀ h, hpc c' h = if decide (h = h0) then opc else hpc c h) →
  (∀ i, (c_next c' ≤ i)%nat → c_thr c' !! i = None) →
  ((c_lock c' = c_lock c ∧ (locked opc ↔ locked (hpc c h0))) ∨
   (c_lock c = None ∧ c_lock c' = Some h0 ∧ locked opc) ∨
   (c_lock c = Some h0 ∧ c_lock c' = None ∧ ¬ locked opc)) →
  (excl opc → no_readers c') → (no_readers c → no_readers c' ∨ c_lock c = None) → linv c'.
Proof.
  intros [H1 H2 H3] Hh Hf Hl He Hr. split; [| |done].
  - intros h. rewrite Hh. destruct Hl as [[-> Hl]|[(Hn&->&Hl)|(Hs&->&Hl)]].
    + destruct (decide (h = h0)) as [->|]; [by rewrite H1, Hl|apply H1].
    + destruct (decide (h = h0)) as [->|Hne]; [done|]. rewrite <-H1, Hn. split; [by intros [= <-]|done].
    + destruct (decide (h = h0)) as [->|Hne]; [done|]. rewrite <-H1, Hs. split; [done|by intros [= <-]].
  - intros h. rewrite Hh. destruct (decide (h = h0)) as [->|]; [done|]. intros Hx.
    destruct (Hr (H2 h Hx)) as [?|Hn]; [done|]. apply excl_locked, H1 in Hx. congruence.
Qed.
Lemma hpc_set_thr c i t h :
  hpc (set_thr c i t) h = if decide (h = HCall i) then tpc t else hpc c h.
Proof.
  destruct h as [j|]; simpl; [|done]. destruct (decide (HCall j = HCall i)) as [[= ->]|Hne].
  - by rewrite lookup_insert.
  - rewrite lookup_insert_ne; [done|congruence].
Qed.
Lemma hpc_end_thr c i h : hpc (end_thr c i) h = if decide (h = HCall i) then None else hpc c h.
Proof.
  destruct h as [j|]; simpl; [|done]. destruct (decide (HCall j = HCall i)) as [[= ->]|Hne].
  - by rewrite lookup_delete.
  - rewrite lookup_delete_ne; [done|congruence].
Qed.
Lemma hpc_new_thr c t h :
  hpc (new_thr c t) h = if decide (h = HCall (c_next c)) then tpc t else hpc c h.
Proof.
  destruct h as [j|]; simpl; [|done]. destruct (decide (HCall j = HCall (c_next c))) as [[= ->]|Hne].
  - by rewrite lookup_insert.
  - rewrite lookup_insert_ne; [done|congruence].
Qed.
Lemma hpc_set_int c t h : hpc (set_int c t) h = if decide (h = HInt) then ipc t else hpc c h.
Proof. by destruct h. Qed.
Definition not_send (t : thr) : Prop := match t with TSend _ _ _ => False | _ => True end.
Lemma readers_insert (c c' : cfg) i t :
  c_thr c' = <[i := t]> (c_thr c) → not_send t → no_readers c → no_readers c'.
Proof.
  intros Heq Ht Hr j ei ks fwd. rewrite Heq. destruct (decide (j = i)) as [->|].
  - rewrite lookup_insert. intros [= ->]. done.
  - rewrite lookup_insert_ne by done. apply Hr.
Qed.
Lemma readers_delete (c c' : cfg) i : c_thr c' = delete i (c_thr c) → no_readers c → no_readers c'.
Proof. intros Heq Hr j ei ks fwd. rewrite Heq, lookup_delete_Some. intros [_ ?]. by eapply Hr. Qed.
Lemma readers_same (c c' : cfg) : c_thr c' = c_thr c → no_readers c → no_readers c'.
Proof. intros Heq Hr j ei ks fwd. rewrite Heq. apply Hr. Qed.
Lemma fresh_insert c i t (m : gmap nat thr) :
  linv c → is_Some (c_thr c !! i) → m = <[i := t]> (c_thr c) → ∀ j, (c_next c ≤ j)%nat → m !! j = None.
Proof.
  intros Hc [x Hx] -> j Hj. destruct (decide (j = i)) as [->|].
  - apply (li_fresh _ Hc) in Hj. congruence.
  - rewrite lookup_insert_ne by done. by apply (li_fresh _ Hc).
Qed.
Lemma linv0 : linv cfg0.
Proof.
  split.
  - intros [i|]; simpl; by rewrite ?lookup_empty.
  - intros h _ i ei ks fwd. simpl. by rewrite lookup_empty.
  - intros i _. simpl. apply lookup_empty.
Qed.
Lemma linv_step c l c' : linv c → step c l c' → linv c'.
Proof.
  intros Hc Hs. pose proof (li_fresh c Hc) as Hf.
  assert (∀ i t, c_thr c !! i = Some t → is_Some (c_thr c !! i)) as Hsome by (intros ?? ->; eauto).
  assert (∀ t, not_send t → (∀ i, (c_next (new_thr c t) ≤ i)%nat → c_thr (new_thr c t) !! i = None)) as Hnew.
  { intros t _ i Hi. simpl in *. rewrite lookup_insert_ne by lia. apply Hf. lia. }
  inversion Hs; subst; clear Hs.
  - (* call *) eapply (linv_upd c _ (HCall (c_next c)) (Some WWant)); [done|apply hpc_new_thr|by apply Hnew|..].
    + left. split; [done|]. simpl. by rewrite Hf.
    + done.
    + intros Hr. left. by eapply readers_insert.
  - (* report *) destruct Hc as [H1 H2 H3]. split; [apply H1|apply H2|done].
  - (* take *) eapply (linv_upd c _ (HCall (c_next c)) None); [done|intros h; by rewrite hpc_new_thr|by apply (Hnew (TEvt ei))|..].
    + left. split; [done|]. simpl. by rewrite Hf.
    + done.
    + intros Hr. left. by eapply readers_insert.
  - (* want *) eapply (linv_upd c _ (HCall i) (Some WWait)); [done|apply hpc_set_thr|eapply (fresh_insert c); [done|by eapply Hsome|reflexivity]|..].
    + right. left. done.
    + done.
    + by right.
  - (* lock *) assert (no_readers (set_thr c i (TCall o WHold))) by by eapply readers_insert.
    eapply (linv_upd c _ (HCall i) (Some WHold)); [done|apply hpc_set_thr|eapply (fresh_insert c); [done|by eapply Hsome|reflexivity]|..].
    + left. split; [done|]. simpl. by rewrite H.
    + done.
    + by left.
  - (* crit *) assert (no_readers c) as Hr by (apply (li_excl _ Hc (HCall i)); simpl; by rewrite H).
    assert (no_readers (set_st (set_thr c i (TCall o (WLeft r))) s')) by by eapply readers_insert.
    eapply (linv_upd c _ (HCall i) (Some (WLeft r))); [done|apply hpc_set_thr|eapply (fresh_insert c); [done|by eapply Hsome|reflexivity]|..].
    + left. split; [done|]. simpl. by rewrite H.
    + done.
    + by left.
  - (* unlock *) assert (c_lock c = Some (HCall i)) by (apply (li_lock _ Hc); simpl; by rewrite H).
    eapply (linv_upd c _ (HCall i) (Some (WFree r))); [done|apply hpc_set_thr|eapply (fresh_insert c); [done|by eapply Hsome|reflexivity]|..].
    + right. right. split_and!; [done|done|by intros []].
    + done.
    + intros Hr. left. by eapply readers_insert.
  - (* ret *) eapply (linv_upd c _ (HCall i) None); [done|apply hpc_end_thr| |..].
    + intros j Hj. simpl. rewrite lookup_delete_None. right. by apply Hf.
    + left. split; [done|]. simpl. by rewrite H.
    + done.
    + intros Hr. left. by eapply readers_delete.
  - (* rlock *) eapply (linv_upd c _ (HCall i) None); [done|intros h; by rewrite hpc_set_thr|eapply (fresh_insert c); [done|by eapply Hsome|reflexivity]|..].
    + left. split; [done|]. simpl. by rewrite H.
    + done.
    + by right.
  - eapply (linv_upd c _ (HCall i) None); [done|intros h; by rewrite hpc_set_thr|eapply (fresh_insert c); [done|by eapply Hsome|reflexivity]|..].
    + left. split; [done|]. simpl. by rewrite H.
    + done.
    + intros Hr. exfalso. by eapply Hr.
  - eapply (linv_upd c _ (HCall i) None); [done|intros h; rewrite hpc_set_thr; by destruct (decide (length _ < _)%nat)| |..].
    + destruct (decide (length _ < _)%nat); (eapply (fresh_insert c); [done|by eapply Hsome|reflexivity]).
    + left. split; [by destruct (decide (length _ < _)%nat)|]. simpl. by rewrite H.
    + done.
    + intros Hr. exfalso. by eapply Hr.
  - eapply (linv_upd c _ (HCall i) None); [done|intros h; by rewrite hpc_set_thr|eapply (fresh_insert c); [done|by eapply Hsome|reflexivity]|..].
    + left. split; [done|]. simpl. by rewrite H.
    + done.
    + intros Hr. exfalso. by eapply Hr.
  - (* runlock *) destruct fwd.
    + eapply (linv_upd c _ (HCall i) None); [done|intros h; by rewrite hpc_set_thr|eapply (fresh_insert c); [done|by eapply Hsome|reflexivity]|..].
      * left. split; [done|]. simpl. by rewrite H.
      * done.
      * intros Hr. exfalso. by eapply Hr.
    + eapply (linv_upd c _ (HCall i) None); [done|intros h; by rewrite hpc_end_thr| |..].
      * intros j Hj. simpl. rewrite lookup_delete_None. right. by apply Hf.
      * left. split; [done|]. simpl. by rewrite H.
      * done.
      * intros Hr. exfalso. by eapply Hr.
  - (* fwd *) eapply (linv_upd c _ (HCall i) None); [done|intros h; by rewrite hpc_end_thr| |..].
    + intros j Hj. simpl. rewrite lookup_delete_None. right. by apply Hf.
    + left. split; [done|]. simpl. by rewrite H.
    + done.
    + intros Hr. left. by eapply readers_delete.
  - eapply (linv_upd c _ HInt (Some WWant)); [done|by intros []|done|..].
    + left. split; [done|]. simpl. by rewrite H.
    + done.
    + by left.
  - eapply (linv_upd c _ HInt (Some WWait)); [done|by intros []|done|..].
    + right. left. done.
    + done.
    + by left.
  - eapply (linv_upd c _ HInt (Some WHold)); [done|by intros []|done|..].
    + left. split; [done|]. simpl. by rewrite H.
    + done.
    + by left.
  - assert (no_readers c) by (apply (li_excl _ Hc HInt); simpl; by rewrite H).
    eapply (linv_upd c _ HInt (Some (WLeft ROk))); [done|by intros []|done|..].
    + left. split; [done|]. simpl. by rewrite H.
    + done.
    + by left.
  - assert (c_lock c = Some HInt) by (apply (li_lock _ Hc); simpl; by rewrite H).
    eapply (linv_upd c _ HInt (Some (WFree r))); [done|by intros []|done|..].
    + right. right. split_and!; [done|done|by intros []].
    + done.
    + by left.
  - eapply (linv_upd c _ HInt None); [done|by intros []|done|..].
    + left. split; [done|]. simpl. by rewrite H.
    + done.
    + by left.
Qed.
Lemma run_linv ls c : run ls c → linv c.
Proof. induction 1; [apply linv0|by eapply linv_step]. Qed.

(** ** Calls, their effects and their returns *)
Definition lid (l : lab) : option nat :=
  match l with LCall i _ | LCrit i _ _ | LRet i _ _ => Some i | _ => None end.
Definition kthr (ls : list lab) (i : nat) (o : nop) (pc : wpc) : Prop :=
  call_ok o ∧ LCall i o ∈ ls ∧ (∀ o' r, LRet i o' r ∉ ls) ∧
  match pc with WLeft r | WFree r => LCrit i o r ∈ ls | _ => ∀ o' r, LCrit i o' r ∉ ls end.
Record kinv (ls : list lab) (c : cfg) : Prop := {
  ki_thr : ∀ i o pc, c_thr c !! i = Some (TCall o pc) → kthr ls i o pc;
  ki_old : ∀ l i, l ∈ ls → lid l = Some i → (i < c_next c)%nat;
}.
Lemma snoc_other ls l l' i : lid l ≠ Some i → lid l' = Some i → l' ∈ ls ++ [l] → l' ∈ ls.
Proof. intros Hl Hl' [?| ->%elem_of_list_singleton]%elem_of_app; [done|congruence]. Qed.
Lemma kthr_snoc ls l i o pc : lid l ≠ Some i → kthr ls i o pc → kthr (ls ++ [l]) i o pc.
Proof.
  intros Hl (Hc&H1&H2&H3). split_and!; [done|apply elem_of_app; by left| |].
  - intros o' r Hin. by eapply H2, snoc_other.
  - destruct pc; try (apply elem_of_app; by left); intros o' r' Hin; by eapply H3, snoc_other.
Qed.
Lemma kinv_upd ls c l c' :
  kinv ls c →
  (∀ j o pc, c_thr c' !! j = Some (TCall o pc) →
     (c_thr c !! j = Some (TCall o pc) ∧ lid l ≠ Some j) ∨ kthr (ls ++ [l]) j o pc) →
  (c_next c ≤ c_next c')%nat → (∀ i, lid l = Some i → (i < c_next c')%nat) → kinv (ls ++ [l]) c'.
Proof.
  intros [H1 H2] Ht Hn Hl. split.
  - intros i o pc [[Hi Hne]|?]%Ht; [|done]. apply kthr_snoc; [done|]. by apply H1.
  - intros l' i [Hin| ->%elem_of_list_singleton]%elem_of_app Hi; [|by apply Hl].
    specialize (H2 _ _ Hin Hi). lia.
Qed.
(** A writer proceeds. *)
Lemma kinv_pc ls c i o pc pc' c' :
  kinv ls c → c_thr c !! i = Some (TCall o pc) → c_thr c' = <[i := TCall o pc']> (c_thr c) →
  c_next c' = c_next c →
  (∀ ls' : list lab, match pc with WLeft r | WFree r => LCrit i o r ∈ ls' | _ => ∀ o' r, LCrit i o' r ∉ ls' end →
     match pc' with WLeft r | WFree r => LCrit i o r ∈ ls' | _ => ∀ o' r, LCrit i o' r ∉ ls' end) →
  kinv (ls ++ [LTau]) c'.
Proof.
  intros Hk Hi Heq Hn Hpc. apply (kinv_upd _ c); [done| |by rewrite Hn|done].
  intros j o' pc2. rewrite Heq. destruct (decide (j = i)) as [->|].
  - rewrite lookup_insert. intros [= <- <-]. right. destruct (ki_thr _ _ Hk _ _ _ Hi) as (Hc&H1&H2&H3).
    apply kthr_snoc; [done|]. split_and!; [done..|]. by apply Hpc.
  - rewrite lookup_insert_ne by done. intros ?. by left.
Qed.
(** A goroutine of an event proceeds. *)
Lemma kinv_evt ls c i t l c' :
  kinv ls c → lid l = None → tpc t = None → c_thr c' = <[i := t]> (c_thr c) → c_next c' = c_next c →
  kinv (ls ++ [l]) c'.
Proof.
  intros Hk Hl Ht Heq Hn. apply (kinv_upd _ c); [done| |by rewrite Hn|by rewrite Hl].
  intros j o' pc2. rewrite Heq, Hl. destruct (decide (j = i)) as [->|].
  - rewrite lookup_insert. by intros [= ->].
  - rewrite lookup_insert_ne by done. intros ?. by left.
Qed.
Lemma kinv_del ls c i l c' :
  kinv ls c → (∀ j, lid l = Some j → j = i ∧ (i < c_next c)%nat) → c_thr c' = delete i (c_thr c) → c_next c' = c_next c →
  kinv (ls ++ [l]) c'.
Proof.
  intros Hk Hl Heq Hn. apply (kinv_upd _ c); [done| |by rewrite Hn|rewrite Hn; by intros j [-> ?]%Hl].
  intros j o' pc2. rewrite Heq, lookup_delete_Some. intros [? ?]. left. split; [done|].
  intros [-> _]%Hl. done.
Qed.
Lemma kinv_same ls c l c' :
  kinv ls c → lid l = None → c_thr c' = c_thr c → c_next c' = c_next c → kinv (ls ++ [l]) c'.
Proof.
  intros Hk Hl Heq Hn. apply (kinv_upd _ c); [done| |by rewrite Hn|by rewrite Hl].
  intros j o pc. rewrite Heq, Hl. by left.
Qed.
Lemma kinv_step ls c l c' : linv c → kinv ls c → step c l c' → kinv (ls ++ [l]) c'.
Proof.
  intros Hc Hk Hs. pose proof (li_fresh c Hc) as Hf.
  assert (∀ i t, c_thr c !! i = Some t → (i < c_next c)%nat) as Hlt.
  { intros i t Hi. destruct (decide (c_next c ≤ i)%nat) as [Hge|]; [|lia]. apply Hf in Hge. congruence. }
  assert (∀ l', l' ∈ ls → lid l' ≠ Some (c_next c)) as Hnone.
  { intros l' Hin Hi. apply (ki_old _ _ Hk _ _ Hin) in Hi. lia. }
  inversion Hs; subst; clear Hs.
  - (* call *) apply (kinv_upd _ c); [done| |simpl; lia|intros i [= <-]; simpl; lia].
    intros j o' pc'. simpl. destruct (decide (j = c_next c)) as [->|].
    + rewrite lookup_insert. intros [= <- <-]. right. split_and!; [done|apply elem_of_app; right; by left| |].
      * intros o' r [Hin|Hin%elem_of_list_singleton]%elem_of_app; [|done]. by eapply Hnone.
      * intros o' r [Hin|Hin%elem_of_list_singleton]%elem_of_app; [|done]. by eapply Hnone.
    + rewrite lookup_insert_ne by done. intros ?. left. split; [done|congruence].
  - by eapply kinv_same.
  - apply (kinv_upd _ c); [done| |simpl; lia|done]. intros j o' pc'. simpl. destruct (decide (j = c_next c)) as [->|].
    + by rewrite lookup_insert.
    + rewrite lookup_insert_ne by done. intros ?. by left.
  - eapply (kinv_pc _ c i o WWant WWait); done.
  - eapply (kinv_pc _ c i o WWait WHold); done.
  - (* crit *) destruct (ki_thr _ _ Hk _ _ _ H) as (Hok&K1&K2&K3).
    apply (kinv_upd _ c); [done| |simpl; lia|intros j [= <-]; simpl; by eapply Hlt].
    intros j o' pc'. simpl. destruct (decide (j = i)) as [->|].
    + rewrite lookup_insert. intros [= <- <-]. right. split_and!; [done|apply elem_of_app; by left| |].
      * intros o' r' [Hin|Hin%elem_of_list_singleton]%elem_of_app; [|done]. by eapply K2.
      * apply elem_of_app. right. by left.
    + rewrite lookup_insert_ne by done. intros ?. left. split; [done|congruence].
  - eapply (kinv_pc _ c i o (WLeft r) (WFree r)); done.
  - eapply (kinv_del _ c i); [done| |done..]. intros j [= <-]. split; [done|]. by eapply Hlt.
  - (eapply (kinv_evt _ c i); [done|done| |reflexivity|done]; done).
  - (eapply (kinv_evt _ c i); [done|done| |reflexivity|done]; done).
  - destruct (decide (length _ < _)%nat); (eapply (kinv_evt _ c i); [done|done| |reflexivity|done]; done).
  - (eapply (kinv_evt _ c i); [done|done| |reflexivity|done]; done).
  - destruct fwd; [(eapply (kinv_evt _ c i); [done|done| |reflexivity|done]; done)|by eapply (kinv_del _ c i)].
  - by eapply (kinv_del _ c i).
  - by eapply kinv_same.
  - by eapply kinv_same.
  - by eapply kinv_same.
  - by eapply kinv_same.
  - by eapply kinv_same.
  - by eapply kinv_same.
Qed.
Lemma run_kinv ls c : run ls c → kinv ls c.
Proof.
  induction 1 as [|ls c l c' Hr IH Hs].
  - split; [intros i o pc; simpl; by rewrite lookup_empty|]. intros l i Hin. by apply elem_of_nil in Hin.
  - eapply kinv_step; [by eapply run_linv|done..].
Qed.
(** A call that has started is running or has returned. *)
Definition call_live (ls : list lab) (c : cfg) : Prop :=
  ∀ i o, LCall i o ∈ ls → (∃ pc, c_thr c !! i = Some (TCall o pc)) ∨ ∃ r, LRet i o r ∈ ls.
Lemma live_upd ls c l c' :
  call_live ls c → (∀ i o, l ≠ LCall i o) →
  (∀ i o pc, c_thr c !! i = Some (TCall o pc) → (∃ pc, c_thr c' !! i = Some (TCall o pc)) ∨ ∃ r, l = LRet i o r) →
  call_live (ls ++ [l]) c'.
Proof.
  intros H Hl Ht i o [Hin|Hin%elem_of_list_singleton]%elem_of_app; [|by destruct (Hl i o)].
  destruct (H i o Hin) as [(pc&Hi)|(r&Hr)]; [|right; exists r; apply elem_of_app; by left].
  destruct (Ht _ _ _ Hi) as [?|(r&->)]; [by left|]. right. exists r. apply elem_of_app. right. by left.
Qed.
Lemma live_ins (c : cfg) (m : gmap nat thr) l i t t0 :
  c_thr c !! i = Some t0 → m = <[i := t]> (c_thr c) → (∀ o pc, t0 = TCall o pc → ∃ pc', t = TCall o pc') →
  ∀ j o pc, c_thr c !! j = Some (TCall o pc) → (∃ pc, m !! j = Some (TCall o pc)) ∨ ∃ r, l = LRet j o r.
Proof.
  intros Hi -> Ht j o pc Hj. left. destruct (decide (j = i)) as [->|].
  - rewrite Hi in Hj. injection Hj as ->. destruct (Ht _ _ eq_refl) as [pc' ->]. exists pc'. by rewrite lookup_insert.
  - exists pc. by rewrite lookup_insert_ne.
Qed.
Lemma live_del (c : cfg) (m : gmap nat thr) l i t0 :
  c_thr c !! i = Some t0 → m = delete i (c_thr c) → (∀ o pc, t0 = TCall o pc → ∃ r, l = LRet i o r) →
  ∀ j o pc, c_thr c !! j = Some (TCall o pc) → (∃ pc, m !! j = Some (TCall o pc)) ∨ ∃ r, l = LRet j o r.
Proof.
  intros Hi -> Ht j o pc Hj. destruct (decide (j = i)) as [->|].
  - right. rewrite Hi in Hj. injection Hj as ->. by eapply Ht.
  - left. exists pc. by rewrite lookup_delete_ne.
Qed.
Lemma live_step ls c l c' : linv c → call_live ls c → step c l c' → call_live (ls ++ [l]) c'.
Proof.
  intros Hc Hk Hs. pose proof (li_fresh c Hc (c_next c) ltac:(lia)) as Hf.
  assert (∀ c' l, (∀ i o, l ≠ LCall i o) → c_thr c' = c_thr c → call_live (ls ++ [l]) c') as Hsame.
  { intros c2 l2 ? Heq. apply (live_upd _ c); [done..|]. rewrite Heq. eauto. }
  inversion Hs; subst; clear Hs.
  - intros i o' [Hin|[= -> ->]%elem_of_list_singleton]%elem_of_app.
    + destruct (Hk i o' Hin) as [(pc&Hi)|(r&Hr)]; [|right; exists r; apply elem_of_app; by left].
      left. exists pc. simpl. rewrite lookup_insert_ne; [done|congruence].
    + left. exists WWant. simpl. by rewrite lookup_insert.
  - by apply Hsame.
  - apply (live_upd _ c); [done..|]. simpl. intros i o pc Hi. left. exists pc. rewrite lookup_insert_ne; [done|congruence].
  - apply (live_upd _ c); [done..|]. eapply live_ins; [done|reflexivity|]. intros ?? [= <- <-]. by eexists.
  - apply (live_upd _ c); [done..|]. eapply live_ins; [done|reflexivity|]. intros ?? [= <- <-]. by eexists.
  - apply (live_upd _ c); [done..|]. eapply live_ins; [done|reflexivity|]. intros ?? [= <- <-]. by eexists.
  - apply (live_upd _ c); [done..|]. eapply live_ins; [done|reflexivity|]. intros ?? [= <- <-]. by eexists.
  - apply (live_upd _ c); [done..|]. eapply live_del; [done|reflexivity|]. intros ?? [= <- <-]. by eexists.
  - apply (live_upd _ c); [done..|]. by eapply live_ins; [done|reflexivity|].
  - apply (live_upd _ c); [done..|]. by eapply live_ins; [done|reflexivity|].
  - apply (live_upd _ c); [done..|]. destruct (decide (length _ < _)%nat); by eapply live_ins; [done|reflexivity|].
  - apply (live_upd _ c); [done..|]. by eapply live_ins; [done|reflexivity|].
  - apply (live_upd _ c); [done..|]. destruct fwd; [by eapply live_ins; [done|reflexivity|]|by eapply live_del; [done|reflexivity|]].
  - apply (live_upd _ c); [done..|]. by eapply live_del; [done|reflexivity|].
  - by apply Hsame.
  - by apply Hsame.
  - by apply Hsame.
  - by apply Hsame.
  - by apply Hsame.
  - by apply Hsame.
Qed.
Lemma run_live ls c : run ls c → call_live ls c.
Proof.
  induction 1 as [|ls c l c' Hr IH Hs]; [intros i o Hin; by apply elem_of_nil in Hin|].
  eapply live_step; [by eapply run_linv|done..].
Qed.
(** What precedes a return and an effect. *)
Lemma ret_crit a i o r b c : run (a ++ LRet i o r :: b) c → LCrit i o r ∈ a.
Proof.
  intros (c1&c2&Hr&Hs)%run_prefix. inversion Hs as [| | | | | | |? ? ? ? Hi| | | | | | | | | | | |]; subst. by destruct (ki_thr _ _ (run_kinv _ _ Hr) _ _ _ Hi) as (_&_&_&?).
Qed.
Lemma crit_call a i o r b c :
  run (a ++ LCrit i o r :: b) c → LCall i o ∈ a ∧ (∀ o' r', LCrit i o' r' ∉ a) ∧ (∀ o' r', LRet i o' r' ∉ a).
Proof.
  intros (c1&c2&Hr&Hs)%run_prefix. inversion Hs as [| | | | |? ? ? ? ? ? Hi| | | | | | | | | | | | | |]; subst.
  destruct (ki_thr _ _ (run_kinv _ _ Hr) _ _ _ Hi) as (_&?&?&?). done.
Qed.
Lemma call_fresh a i o b c : run (a ++ LCall i o :: b) c → ∀ l, l ∈ a → lid l ≠ Some i.
Proof.
  intros (c1&c2&Hr&Hs)%run_prefix l Hin Hi. inversion Hs; subst.
  apply (ki_old _ _ (run_kinv _ _ Hr) _ _ Hin) in Hi. lia.
Qed.

(** ** Effects in order *)
Notation trace := (list (nop * result)).
Inductive lin : list lab → trace → Prop :=
  | lin_nil : lin [] []
  | lin_crit ls tr i o r : lin ls tr → lin (ls ++ [LCrit i o r]) (tr ++ [(o, r)])
  | lin_int ls tr ei tr' :
      lin ls tr → (tr' = [] ∨ ∃ ev p, tr' = [(NEvent ev p, ROk)]) → lin (ls ++ [LInt ei]) (tr ++ tr')
  | lin_other ls tr l :
      lin ls tr → (∀ i o r, l ≠ LCrit i o r) → (∀ ei, l ≠ LInt ei) → lin (ls ++ [l]) tr.
Lemma lin_outstanding P (HP : platform_ok P) ls tr n :
  lin ls tr → outstanding tr n →
  ∃ a k p isrec e r b, ls = a ++ LCrit k (NWatch p isrec n e) r :: b ∧ ∀ i r', LCrit i (NStop n) r' ∉ b.
Proof.
  assert (∀ ls l, (∀ i r', l ≠ LCrit i (NStop n) r') →
    (∃ a k p isrec e r b, ls = a ++ LCrit k (NWatch p isrec n e) r :: b ∧ ∀ i r', LCrit i (NStop n) r' ∉ b) →
    ∃ a k p isrec e r b, ls ++ [l] = a ++ LCrit k (NWatch p isrec n e) r :: b ∧ ∀ i r', LCrit i (NStop n) r' ∉ b) as Hkeep.
  { intros ls' l Hl (a&k&p&isrec&e&r&b&->&Hb). exists a, k, p, isrec, e, r, (b ++ [l]).
    split; [by rewrite <-app_assoc|]. intros i r' [?|Hin%elem_of_list_singleton]%elem_of_app; [by eapply Hb|].
    by eapply Hl. }
  induction 1 as [|ls tr i o r Hl IH|ls tr ei tr' Hl IH Htr|ls tr l Hl IH Hc Hi]; intros Ho.
  - destruct Ho as (t1&?&?&?&?&?&Heq&_). by destruct t1.
  - apply (outstanding_snoc P HP) in Ho. destruct o as [p isrec m e|m|ev p].
    + destruct Ho as [<-|Ho].
      * exists ls, i, p, isrec, e, r, []. split; [done|]. intros ?? Hin. by apply elem_of_nil in Hin.
      * apply Hkeep; [done|by apply IH].
    + destruct Ho as [Hne Ho]. apply Hkeep; [congruence|by apply IH].
    + apply Hkeep; [done|by apply IH].
  - apply Hkeep; [done|]. apply IH. destruct Htr as [-> |(ev&p&->)]; [by rewrite app_nil_r in Ho|].
    by apply (outstanding_snoc P HP) in Ho.
  - apply Hkeep; [|by apply IH]. intros i r' ->. by eapply Hc.
Qed.

(** ** The events in flight, the sends to be made and the tree *)
Record tree_spec (exec : trace → st → Prop) (P : platform) : Prop := {
  ts_plat : platform_ok P;
  ts_init : exec [] init_st;
  ts_call tr s E o s' r : exec tr s → env_good E → call_ok o → t_call T E s o = (s', r) → st_panic s' = false →
    exec (tr ++ [(o, r)]) s';
  ts_int tr s E ei : exec tr s → env_good E → ev_ok ei → st_panic (t_int T E s ei) = false →
    ∃ tr', (tr' = [] ∨ ∃ ev p, tr' = [(NEvent ev p, ROk)]) ∧ exec (tr ++ tr') (t_int T E s ei);
  ts_disp tr s E ei n : exec tr s → env_good E → ev_ok ei → KUser n ∈ (t_disp T E (st_tree s) ei).1 →
    outstanding tr n;
}.
Context (exec : trace → st → Prop) (P : platform) (HT : tree_spec exec P).
Definition thr_ok (s : st) (t : thr) : Prop :=
  match t with
  | TCall _ _ => True
  | TEvt ei | TFwd ei => ev_ok ei
  | TSend ei ks fwd => ev_ok ei ∧ ∃ E done, env_good E ∧ t_disp T E (st_tree s) ei = (done ++ ks, fwd)
  end.
Record dinv (c : cfg) : Prop := {
  di_thr : map_Forall (λ _, thr_ok (c_st c)) (c_thr c);
  di_q : Forall ev_ok (c_q c);
  di_rec : Forall ev_ok (c_rec c);
  di_int : match c_int c with IProc ei _ => ev_ok ei | IRecv => True end;
}.
Lemma thr_ok_any s s' t : not_send t → thr_ok s t → thr_ok s' t.
Proof. by destruct t. Qed.
Lemma dinv_thr c i t c' :
  dinv c → c_st c' = c_st c → c_thr c' = <[i := t]> (c_thr c) → c_q c' = c_q c → c_rec c' = c_rec c → c_int c' = c_int c →
  thr_ok (c_st c) t → dinv c'.
Proof.
  intros [H1 H2 H3 H4] E1 E2 E3 E4 E5 Ht. split; rewrite ?E1, ?E2, ?E3, ?E4, ?E5; [|done..].
  by apply map_Forall_insert_2.
Qed.
Lemma dinv_del c i c' :
  dinv c → c_st c' = c_st c → c_thr c' = delete i (c_thr c) → c_q c' = c_q c → Forall ev_ok (c_rec c') → c_int c' = c_int c →
  dinv c'.
Proof.
  intros [H1 H2 H3 H4] E1 E2 E3 E4 E5. split; rewrite ?E1, ?E2, ?E3, ?E5; [|done..].
  by apply map_Forall_delete.
Qed.
Lemma dinv_int c c' :
  dinv c → c_st c' = c_st c → c_thr c' = c_thr c → c_q c' = c_q c → Forall ev_ok (c_rec c') →
  match c_int c' with IProc ei _ => ev_ok ei | IRecv => True end → dinv c'.
Proof. intros [H1 H2 H3 H4] E1 E2 E3 E4 E5. split; rewrite ?E1, ?E2, ?E3; done. Qed.
Lemma dinv_step c l c' : linv c → dinv c → step c l c' → dinv c'.
Proof.
  intros Hc Hd Hs. pose proof Hd as [H1 H2 H3 H4]. inversion Hs; subst; clear Hs.
  - by eapply (dinv_thr c (c_next c)).
  - split; [done| |done..]. simpl. apply Forall_app. split; [done|by apply Forall_singleton].
  - rewrite H in H2. apply Forall_cons_1 in H2 as [He Hq]. split; [|done..]. simpl. by apply map_Forall_insert_2.
  - by eapply (dinv_thr c i).
  - by eapply (dinv_thr c i).
  - (* crit *) assert (no_readers c) as Hr by (apply (li_excl _ Hc (HCall i)); simpl; by rewrite H).
    split; [|done..]. simpl. intros j t. destruct (decide (j = i)) as [->|].
    + rewrite lookup_insert. by intros [= <-].
    + rewrite lookup_insert_ne by done. intros Hj. pose proof (H1 j t Hj) as Ht.
      eapply thr_ok_any; [|exact Ht]. destruct t; try done. by eapply Hr.
  - by eapply (dinv_thr c i).
  - by eapply (dinv_del c i).
  - eapply (dinv_thr c i); try done. simpl. split; [apply (H1 _ _ H)|]. exists E, []. done.
  - eapply (dinv_thr c i); try done. destruct (H1 _ _ H) as (?&E&dn&?&Heq). split; [done|].
    exists E, (dn ++ [KUser n]). split; [done|]. by rewrite <-app_assoc.
  - assert (thr_ok (c_st c) (TSend ei ks fwd)) as Hk.
    { destruct (H1 _ _ H) as (?&E&dn&?&Heq). split; [done|]. exists E, (dn ++ [KRec]). split; [done|]. by rewrite <-app_assoc. }
    destruct (decide (length _ < _)%nat).
    + split; simpl; [by apply map_Forall_insert_2|done| |done]. apply Forall_app. split; [done|]. apply Forall_singleton.
      by destruct (H1 _ _ H).
    + by eapply (dinv_thr c i).
  - eapply (dinv_thr c i); try done. destruct (H1 _ _ H) as (?&E&dn&?&Heq). split; [done|].
    exists E, (dn ++ [KNil]). split; [done|]. by rewrite <-app_assoc.
  - destruct fwd; [|by eapply (dinv_del c i)]. eapply (dinv_thr c i); try done. by destruct (H1 _ _ H).
  - eapply (dinv_del c i); try done. simpl. apply Forall_app. split; [done|]. apply Forall_singleton. apply (H1 _ _ H).
  - rewrite H0 in H3. apply Forall_cons_1 in H3 as [He Hq]. by eapply (dinv_int c).
  - rewrite H in H4. by eapply (dinv_int c).
  - rewrite H in H4. by eapply (dinv_int c).
  - (* icrit *) assert (no_readers c) as Hr by (apply (li_excl _ Hc HInt); simpl; by rewrite H).
    rewrite H in H4. split; [|done..]. simpl. intros j t Hj. pose proof (H1 j t Hj) as Ht.
    eapply thr_ok_any; [|exact Ht]. destruct t; try done. by eapply Hr.
  - rewrite H in H4. by eapply (dinv_int c).
  - by eapply (dinv_int c).
Qed.
Lemma run_dinv ls c : run ls c → dinv c.
Proof.
  induction 1 as [|ls c l c' Hr IH Hs]; [|eapply dinv_step; [by eapply run_linv|done..]].
  split; simpl; [apply map_Forall_empty|apply Forall_nil_2|apply Forall_nil_2|done].
Qed.
Lemma run_lin ls c : run ls c → ∃ tr, lin ls tr ∧ exec tr (c_st c).
Proof.
  induction 1 as [|ls c l c' Hr IH Hs]; [exists []; split; [constructor|apply (ts_init _ _ HT)]|].
  destruct IH as (tr&Hl&Hx).
  assert ((∀ i o r, l ≠ LCrit i o r) → (∀ ei, l ≠ LInt ei) → c_st c' = c_st c → ∃ tr, lin (ls ++ [l]) tr ∧ exec tr (c_st c')) as Hother.
  { intros ?? ->. exists tr. split; [by constructor|done]. }
  inversion Hs; subst; try (by apply Hother).
  - exists (tr ++ [(o, r)]). split; [by constructor|]. simpl. eapply (ts_call _ _ HT); try done.
    by destruct (ki_thr _ _ (run_kinv _ _ Hr) _ _ _ H).
  - apply Hother; [done..|]. by destruct (decide (length _ < _)%nat).
  - apply Hother; [done..|]. by destruct fwd.
  - pose proof (di_int _ (run_dinv _ _ Hr)) as He. rewrite H in He.
    destruct (ts_int _ _ HT tr (c_st c) E ei Hx H0 He H2) as (tr'&Htr&Hx').
    exists (tr ++ tr'). split; [by constructor|done].
Qed.
(** A channel that is offered something was watched and not stopped since. *)
Lemma offer_outstanding ls i n ei b c : run (ls ++ [LOffer i n ei b]) c → ∃ tr, lin ls tr ∧ outstanding tr n.
Proof.
  intros (c0&Hr&Hs)%run_snoc_inv. destruct (run_lin _ _ Hr) as (tr&Hl&Hx). exists tr. split; [done|].
  inversion Hs as [| | | | | | | | |? ? ? ? ? ? ? Hi| | | | | | | | | |]; subst. destruct (di_thr _ (run_dinv _ _ Hr) _ _ Hi) as (He&E&dn&HE&Heq).
  eapply (ts_disp _ _ HT); [done..|]. rewrite Heq. simpl. apply elem_of_app. right. by left.
Qed.
Lemma run_app_inv a b c : run (a ++ b) c → ∃ c', run a c'.
Proof.
  revert c. induction b as [|x b IH] using rev_ind; intros c Hr; [rewrite app_nil_r in Hr; eauto|].
  rewrite app_assoc in Hr. apply run_snoc_inv in Hr as (c0&Hr&_). eauto.
Qed.
Lemma stop_barrier l1 l2 l3 l4 i r j n ei b c :
  run (l1 ++ LCall i (NStop n) :: l2 ++ LRet i (NStop n) r :: l3 ++ LOffer j n ei b :: l4) c →
  ∃ k, started_watch (l1 ++ LCall i (NStop n) :: l2 ++ LRet i (NStop n) r :: l3) k n ∧ ¬ returned l1 k.
Proof.
  set (pre := l1 ++ LCall i (NStop n) :: l2 ++ LRet i (NStop n) r :: l3).
  intros Hr. assert (∃ c', run (pre ++ [LOffer j n ei b]) c') as [c' Ho].
  { apply (run_app_inv _ l4 c). unfold pre.
    replace ((_ ++ [LOffer j n ei b]) ++ l4) with
      (l1 ++ LCall i (NStop n) :: l2 ++ LRet i (NStop n) r :: l3 ++ LOffer j n ei b :: l4); [done|].
    repeat (rewrite <-?app_assoc; simpl). done. }
  destruct (offer_outstanding _ _ _ _ _ _ Ho) as (tr&Hl&Hout).
  destruct (lin_outstanding P (ts_plat _ _ HT) _ _ _ Hl Hout) as (a&k&p&isrec&e&r'&b'&Heq&Hb).
  apply run_snoc_inv in Ho as (c0&Hpre&_).
  assert (LCrit i (NStop n) r ∈ l2) as Hcrit.
  { assert (LCrit i (NStop n) r ∈ l1 ++ LCall i (NStop n) :: l2) as Hin.
    { eapply (ret_crit _ _ _ _ l3). unfold pre in Hpre. rewrite <-app_assoc. simpl. exact Hpre. }
    apply elem_of_app in Hin as [Hin|[?|Hin]%elem_of_cons]; [|done|done]. exfalso.
    eapply (call_fresh l1 i); [exact Hpre|exact Hin|done]. }
  exists k. rewrite Heq in Hpre. destruct (crit_call _ _ _ _ _ _ Hpre) as (K1&K2&K3). split.
  - exists p, isrec, e. rewrite Heq. apply elem_of_app. by left.
  - intros (o'&r2&Hin). apply elem_of_list_split in Hin as (x&y&->).
    (* the effect of the Watch is in l1, hence before that of the Stop *)
    assert (LCrit k o' r2 ∈ x) as Hx.
    { eapply (ret_crit x k o' r2 (y ++ LCall i (NStop n) :: l2 ++ LRet i (NStop n) r :: l3)).
      rewrite <-Heq in Hpre. unfold pre in Hpre. rewrite <-app_assoc in Hpre. exact Hpre. }
    unfold pre in Heq.
    assert (LRet k o' r2 ∉ a) as Ha by apply K3.
    assert (LCrit k o' r2 ∉ a) as Ha' by apply K2.
    (* a is a proper prefix of what precedes LRet k *)
    assert ((x ++ LRet k o' r2 :: y) ++ LCall i (NStop n) :: l2 ++ LRet i (NStop n) r :: l3 =
      x ++ LRet k o' r2 :: (y ++ LCall i (NStop n) :: l2 ++ LRet i (NStop n) r :: l3)) as Hre by by rewrite <-app_assoc.
    rewrite Hre in Heq. clear Hre.
    apply app_eq_inv in Heq as [(k1&E1&E2)|(k1&E1&E2)].
    + (* x = a ++ k1 *) destruct k1 as [|z k1]; simpl in E2.
      * done.
      * injection E2 as <- ->. apply (Hb i r). set_solver.
    + (* a = x ++ k1 *) subst a. apply Ha', elem_of_app. by left.
Qed.
End facts.

(** ** Progress *)
Section progress.
Context (T : tree_ops) (env_good : env → Prop) (call_ok : nop → Prop) (ev_ok : event_info → Prop).
Notation step := (step T env_good call_ok ev_ok).
Notation run := (run T env_good call_ok ev_ok).
Notation trace := (list (nop * result)).
Context (exec : trace → st → Prop) (P : platform) (HT : tree_spec T env_good call_ok ev_ok exec P).
(** In some environment what is done under the lock does not panic. *)
Context (E : env) (HE : env_good E).
Context (Hint : ∀ tr s ei, exec tr s → ev_ok ei → st_panic (t_int T E s ei) = false).

(** A call holds the lock and is about to panic. *)
Definition panics (c : cfg) : Prop :=
  ∃ i o, c_thr c !! i = Some (TCall o WHold) ∧ st_panic (t_call T E (c_st c) o).1 = true.
Lemma progress_or ls c : run ls c → ¬ quiescent c → panics c ∨ ∃ l c', work l ∧ step c l c'.
Proof.
  intros Hr Hq. destruct (decide (map_Exists (λ _ t, Is_true (match t with TCall o WHold => st_panic (t_call T E (c_st c) o).1 | _ => false end)) (c_thr c))) as [Hp|Hp].
  { left. destruct Hp as (i&[o []| | |]&Hi&Hp); try done. exists i, o. split; [done|by apply Is_true_true]. }
  right. assert (∀ i o, c_thr c !! i = Some (TCall o WHold) → st_panic (t_call T E (c_st c) o).1 = false) as Hcall.
  { intros i o Hi. apply not_true_is_false. intros K. apply Hp. exists i, (TCall o WHold). split; [done|by apply Is_true_true]. }
  clear Hp. pose proof (run_linv _ _ _ _ _ _ Hr) as Hl. pose proof (run_dinv _ _ _ _ _ _ Hr) as Hd.
  destruct (run_lin _ _ _ _ _ _ HT _ _ Hr) as (tr&_&Hx). pose proof (run_kinv _ _ _ _ _ _ Hr) as Hk.
  (* a reader can always go on *)
  assert ((∃ i ei ks fwd, c_thr c !! i = Some (TSend ei ks fwd)) → ∃ l c', work l ∧ step c l c') as Hreader.
  { intros (i&ei&[|[| |n] ks]&fwd&Hi); eexists _, _; (split; [|first [by eapply s_runlock|by eapply s_offer_nil|by eapply s_offer_rec|by eapply (s_offer _ _ _ _ _ _ _ _ _ _ true)]]; done). }
  destruct (decide (map_Exists (λ _ t, Is_true (match t with TSend _ _ _ => true | _ => false end)) (c_thr c))) as [Hex|Hnex].
  { apply Hreader. destruct Hex as (i&[]&Hi&?); try done. eauto. }
  assert (no_readers c) as Hnr. { intros i ei ks fwd Hi. apply Hnex. by exists i, (TSend ei ks fwd). }
  (* the holder of the lock can go on *)
  destruct (c_lock c) as [[i|]|] eqn:Elock.
  { apply (li_lock _ Hl) in Elock. simpl in Elock. destruct (c_thr c !! i) as [[o pc| | |]|] eqn:Ei; simpl in Elock; try done.
    destruct pc; try done.
    - eexists _, _. split; [|by eapply s_lock]. done.
    - destruct (t_call T E (c_st c) o) as [s' r] eqn:Ec. eexists _, _. split; [|eapply s_crit; [done|done|done|]]; [done|].
      specialize (Hcall _ _ Ei). by rewrite Ec in Hcall.
    - eexists _, _. split; [|by eapply s_unlock]. done. }
  { apply (li_lock _ Hl) in Elock. simpl in Elock. pose proof (di_int _ _ _ _ Hd) as He.
    destruct (c_int c) as [|ei pc] eqn:Ei; simpl in Elock; try done. destruct pc; try done.
    - eexists _, _. split; [|by eapply s_ilock]. done.
    - eexists _, _. split; [|eapply s_icrit; [done|done|done|by eapply Hint]]. done.
    - eexists _, _. split; [|by eapply s_iunlock]. done. }
  (* nobody holds the lock *)
  destruct (c_q c) as [|ei q] eqn:Eq; [|eexists _, _; (split; [|by eapply s_take]; done)].
  destruct (c_int c) as [|ei pc] eqn:Ei.
  - destruct (c_rec c) as [|ei q] eqn:Erec; [|eexists _, _; (split; [|by eapply s_recv]; done)].
    destruct (decide (c_thr c = ∅)) as [Hem|Hne]; [by destruct Hq|].
    apply map_choose in Hne as (i&t&Hi). destruct t as [o pc|ei|ei ks fwd|ei].
    + destruct pc as [| | |r|r]; try (exfalso; assert (c_lock c = Some (HCall i)) by (apply (li_lock _ Hl); simpl; by rewrite Hi); congruence).
      * eexists _, _. split; [|by eapply s_want]. done.
      * eexists _, _. split; [|by eapply s_ret]. done.
    + destruct (t_disp T E (st_tree (c_st c)) ei) as [ks fwd] eqn:Ed. eexists _, _. split; [|by eapply s_rlock]. done.
    + exfalso. by eapply Hnr.
    + eexists _, _. split; [|eapply s_fwd; [done|rewrite Erec; simpl; unfold buffer; lia]]. done.
  - destruct pc as [| | |r|r]; try (exfalso; assert (c_lock c = Some HInt) by (apply (li_lock _ Hl); simpl; by rewrite Ei); congruence).
    + eexists _, _. split; [|by eapply s_iwant]. done.
    + eexists _, _. split; [|by eapply s_idone]. done.
Qed.
Context (Hcall : ∀ tr s o, exec tr s → call_ok o → st_panic (t_call T E s o).1 = false).
Lemma progress ls c : run ls c → ¬ quiescent c → ∃ l c', work l ∧ step c l c'.
Proof.
  intros Hr Hq. destruct (progress_or _ _ Hr Hq) as [(i&o&Hi&Hp)|?]; [|done]. exfalso.
  destruct (run_lin _ _ _ _ _ _ HT _ _ Hr) as (tr&_&Hx).
  destruct (ki_thr _ _ _ (run_kinv _ _ _ _ _ _ Hr) _ _ _ Hi) as [Hok _].
  rewrite (Hcall _ _ _ Hx Hok) in Hp. done.
Qed.

(** ** Termination *)
Definition wpc_w (pc : wpc) : nat := match pc with WWant => 5 | WWait => 4 | WHold => 3 | WLeft _ => 2 | WFree _ => 1 end.
Definition thr_a (t : thr) : nat := match t with TEvt _ => 1 | _ => 0 end.
Definition thr_b (t : thr) : nat :=
  match t with TCall _ pc => wpc_w pc | TEvt _ => 0 | TSend _ ks _ => 8 + 7 * length ks | TFwd _ => 7 end.
Definition sum_thr (f : thr → nat) (m : gmap nat thr) : nat := map_fold (λ _ t n, f t + n)%nat 0%nat m.
Lemma sum_insert f m i t : m !! i = None → sum_thr f (<[i := t]> m) = (f t + sum_thr f m)%nat.
Proof. intros Hi. unfold sum_thr. rewrite map_fold_insert_L; [done|intros; lia|done]. Qed.
Lemma sum_delete f m i t : m !! i = Some t → sum_thr f m = (f t + sum_thr f (delete i m))%nat.
Proof. intros Hi. rewrite <-(insert_delete m i t Hi) at 1. apply sum_insert, lookup_delete. Qed.
Lemma sum_update f m i t t' : m !! i = Some t → (sum_thr f (<[i := t']> m) + f t = sum_thr f m + f t')%nat.
Proof.
  intros Hi. rewrite <-insert_delete_insert, sum_insert by apply lookup_delete.
  rewrite (sum_delete f m i t Hi). lia.
Qed.
Definition size_a (c : cfg) : nat := (2 * length (c_q c) + sum_thr thr_a (c_thr c))%nat.
Definition size_b (c : cfg) : nat :=
  (sum_thr thr_b (c_thr c) + 6 * length (c_rec c) + match c_int c with IRecv => 0 | IProc _ pc => wpc_w pc end)%nat.
Lemma work_size c l c' :
  linv c → step c l c' → work l →
  (size_a c' < size_a c)%nat ∨ (size_a c' = size_a c ∧ (size_b c' < size_b c)%nat).
Proof.
  intros Hl Hs Hw. pose proof (li_fresh c Hl (c_next c) ltac:(lia)) as Hf. unfold size_a, size_b. inversion Hs; subst; simpl in *; try done.
  - left. rewrite H. rewrite sum_insert by done. simpl. lia.
  - right. pose proof (sum_update thr_a _ i _ (TCall o WWait) H) as Ha. pose proof (sum_update thr_b _ i _ (TCall o WWait) H) as Hb.
    simpl in *. lia.
  - right. pose proof (sum_update thr_a _ i _ (TCall o WHold) H) as Ha. pose proof (sum_update thr_b _ i _ (TCall o WHold) H) as Hb.
    simpl in *. lia.
  - right. pose proof (sum_update thr_a _ i _ (TCall o (WLeft r)) H) as Ha. pose proof (sum_update thr_b _ i _ (TCall o (WLeft r)) H) as Hb.
    simpl in *. lia.
  - right. pose proof (sum_update thr_a _ i _ (TCall o (WFree r)) H) as Ha. pose proof (sum_update thr_b _ i _ (TCall o (WFree r)) H) as Hb.
    simpl in *. lia.
  - right. pose proof (sum_delete thr_a _ i _ H) as Ha. pose proof (sum_delete thr_b _ i _ H) as Hb. simpl in *. lia.
  - left. pose proof (sum_update thr_a _ i _ (TSend ei ks fwd) H) as Ha. simpl in *. lia.
  - right. pose proof (sum_update thr_a _ i _ (TSend ei ks fwd) H) as Ha. pose proof (sum_update thr_b _ i _ (TSend ei ks fwd) H) as Hb.
    simpl in *. lia.
  - right. pose proof (sum_update thr_a _ i _ (TSend ei ks fwd) H) as Ha. pose proof (sum_update thr_b _ i _ (TSend ei ks fwd) H) as Hb.
    destruct (decide (length _ < _)%nat); simpl in *; rewrite ?app_length; simpl; lia.
  - right. pose proof (sum_update thr_a _ i _ (TSend ei ks fwd) H) as Ha. pose proof (sum_update thr_b _ i _ (TSend ei ks fwd) H) as Hb.
    simpl in *. lia.
  - right. destruct fwd.
    + pose proof (sum_update thr_a _ i _ (TFwd ei) H) as Ha. pose proof (sum_update thr_b _ i _ (TFwd ei) H) as Hb. simpl in *. lia.
    + pose proof (sum_delete thr_a _ i _ H) as Ha. pose proof (sum_delete thr_b _ i _ H) as Hb. simpl in *. lia.
  - right. pose proof (sum_delete thr_a _ i _ H) as Ha. pose proof (sum_delete thr_b _ i _ H) as Hb. simpl in *.
    rewrite app_length. simpl. lia.
  - right. rewrite H, H0. simpl. lia.
  - right. rewrite H. simpl. lia.
  - right. rewrite H. simpl. lia.
  - right. rewrite H. simpl. lia.
  - right. rewrite H. simpl. lia.
  - right. rewrite H. simpl. lia.
Qed.
(** Without new calls and reports the goroutines cannot go on for ever. *)
Lemma no_endless_work ls c (f : nat → cfg) :
  run ls c → f 0%nat = c → ¬ ∀ k, ∃ l, work l ∧ step (f k) l (f (S k)).
Proof.
  intros Hr H0 Hall.
  assert (∀ k, linv (f k)) as Hl.
  { intros k. induction k as [|k IH]; [rewrite H0; by eapply run_linv|]. destruct (Hall k) as (l&_&Hs). by eapply linv_step. }
  assert (∀ a b k, (size_a (f k) < a)%nat → (size_b (f k) < b)%nat → False) as Hno.
  { intros a. induction a as [|a IHa]; [lia|]. intros b. induction b as [|b IHb]; [lia|]. intros k Ha Hb.
    destruct (Hall k) as (l&Hw&Hs). destruct (work_size _ _ _ (Hl k) Hs Hw) as [?|[??]].
    - eapply (IHa (S (size_b (f (S k)))) (S k)); lia.
    - eapply (IHb (S k)); lia. }
  eapply (Hno (S (size_a (f 0%nat))) (S (size_b (f 0%nat))) 0%nat); lia.
Qed.
(** From every reachable state the goroutines can get to the end of their work. *)
Lemma can_finish ls c : run ls c → ∃ ls' c', Forall work ls' ∧ run (ls ++ ls') c' ∧ quiescent c'.
Proof.
  assert (∀ a b ls c, (size_a c < a)%nat → (size_b c < b)%nat → run ls c →
    ∃ ls' c', Forall work ls' ∧ run (ls ++ ls') c' ∧ quiescent c') as Hgo.
  { intros a. induction a as [|a IHa]; [lia|]. intros b. induction b as [|b IHb]; [lia|]. intros ls0 c0 Ha Hb Hr.
    assert (Decision (quiescent c0)) as Hdq.
    { unfold quiescent. assert (Decision (c_int c0 = IRecv)) by (destruct (c_int c0); [by left|by right]).
      assert (∀ l : list event_info, Decision (l = [])) by (intros []; [by left|by right]). apply _. }
    destruct (decide (quiescent c0)) as [Hq|Hq]; [exists [], c0; split_and!; [by apply Forall_nil_2|by rewrite app_nil_r|done]|].
    destruct (progress _ _ Hr Hq) as (l&c1&Hw&Hs). assert (run (ls0 ++ [l]) c1) as Hr1 by by econstructor.
    destruct (work_size _ _ _ (run_linv _ _ _ _ _ _ Hr) Hs Hw) as [?|[??]].
    - destruct (IHa (S (size_b c1)) (ls0 ++ [l]) c1) as (ls'&c'&K1&K2&K3); [lia|lia|done|].
      exists (l :: ls'), c'. split_and!; [by apply Forall_cons_2|by rewrite <-app_assoc in K2|done].
    - destruct (IHb (ls0 ++ [l]) c1) as (ls'&c'&K1&K2&K3); [lia|lia|done|].
      exists (l :: ls'), c'. split_and!; [by apply Forall_cons_2|by rewrite <-app_assoc in K2|done]. }
  intros Hr. apply (Hgo (S (size_a c)) (S (size_b c)) ls c); [lia|lia|done].
Qed.
End progress.

(** ** Order *)
Lemma join_app {A} (l k : list (list A)) : mjoin (l ++ k) = mjoin l ++ mjoin k.
Proof. induction l as [|x l IH]; [done|]. simpl. by rewrite IH, app_assoc. Qed.
Lemma in_order_nil {A} : @in_order A [] [].
Proof. by exists []. Qed.
Lemma in_order_more {A} (l of : list A) x : in_order l of → in_order l (of ++ [x]).
Proof.
  intros (ks&Hl&->). exists (ks ++ [0%nat]). rewrite !app_length, Hl. split; [done|].
  rewrite zip_with_app by done. rewrite join_app. simpl. by rewrite app_nil_r.
Qed.
Lemma in_order_app {A} (l of q : list A) : in_order l of → in_order l (of ++ q).
Proof.
  revert of. induction q as [|x q IH]; intros of H; [by rewrite app_nil_r|].
  change (x :: q) with ([x] ++ q). rewrite app_assoc. by apply IH, in_order_more.
Qed.
Lemma in_order_again {A} (l of : list A) x : in_order l (of ++ [x]) → in_order (l ++ [x]) (of ++ [x]).
Proof.
  intros (ks&Hl&->). destruct ks as [|k ks _] using rev_ind; [rewrite app_length in Hl; simpl in Hl; lia|].
  rewrite !app_length in Hl. simpl in Hl. assert (length ks = length of) as Hl' by lia.
  exists (ks ++ [S k]). rewrite !app_length. split; [simpl; lia|].
  rewrite !zip_with_app by done. rewrite !join_app. simpl. rewrite !app_nil_r, <-app_assoc. f_equal.
  by rewrite <-replicate_S_end.
Qed.
Section order.
Context (T : tree_ops) (env_good : env → Prop) (call_ok : nop → Prop) (ev_ok : event_info → Prop).
Notation step := (step T env_good call_ok ev_ok).
Notation one_by_one := (one_by_one T env_good call_ok ev_ok).
Lemma one_by_one_run ls c : one_by_one ls c → run T env_good call_ok ev_ok ls c.
Proof. induction 1; [constructor|by econstructor]. Qed.
Context (n : positive) (g : bool → bool).
Definition picked (ls : list lab) : list event_info :=
  omap (λ l, match l with LOffer _ m ei b => if decide (m = n) then (if g b then Some ei else None) else None | _ => None end) ls.
Definition tevt (t : thr) : option event_info := match t with TEvt ei | TSend ei _ _ => Some ei | _ => None end.
Definition oinv (ls : list lab) (c : cfg) : Prop :=
  ∃ taken, reports ls = taken ++ c_q c ∧ in_order (picked ls) taken ∧
  ∀ i t ei, c_thr c !! i = Some t → tevt t = Some ei → ∃ a, taken = a ++ [ei].
Lemma picked_snoc ls l : picked (ls ++ [l]) = picked ls ++ picked [l].
Proof. unfold picked. by rewrite omap_app. Qed.
Lemma reports_snoc ls l : reports (ls ++ [l]) = reports ls ++ reports [l].
Proof. unfold reports. by rewrite omap_app. Qed.
Lemma oinv_same ls c l c' :
  oinv ls c → reports [l] = [] → picked [l] = [] → c_q c' = c_q c →
  (∀ i t ei, c_thr c' !! i = Some t → tevt t = Some ei → ∃ j t', c_thr c !! j = Some t' ∧ tevt t' = Some ei) → oinv (ls ++ [l]) c'.
Proof.
  intros (tk&H1&H2&H3) Hr Hp Hq Ht. exists tk. rewrite reports_snoc, picked_snoc, Hr, Hp, Hq, !app_nil_r.
  split_and!; [done|done|]. intros i t ei Hi Hev. destruct (Ht _ _ _ Hi Hev) as (j&t'&Hj&Hev'). by eapply H3.
Qed.
Lemma keep_ins (c : cfg) (m : gmap nat thr) i t t0 :
  c_thr c !! i = Some t0 → m = <[i := t]> (c_thr c) → (tevt t = None ∨ tevt t = tevt t0) →
  ∀ j t' ei, m !! j = Some t' → tevt t' = Some ei → ∃ k t2, c_thr c !! k = Some t2 ∧ tevt t2 = Some ei.
Proof.
  intros Hi -> Ht j t' ei. destruct (decide (j = i)) as [->|].
  - rewrite lookup_insert. intros [= <-] He. destruct Ht as [Ht|Ht]; [congruence|]. exists i, t0. by rewrite <-Ht.
  - rewrite lookup_insert_ne by done. eauto.
Qed.
Lemma keep_new (c : cfg) (m : gmap nat thr) i t :
  m = <[i := t]> (c_thr c) → tevt t = None →
  ∀ j t' ei, m !! j = Some t' → tevt t' = Some ei → ∃ k t2, c_thr c !! k = Some t2 ∧ tevt t2 = Some ei.
Proof.
  intros -> Ht j t' ei. destruct (decide (j = i)) as [->|].
  - rewrite lookup_insert. intros [= <-] He. congruence.
  - rewrite lookup_insert_ne by done. eauto.
Qed.
Lemma keep_del (c : cfg) (m : gmap nat thr) i :
  m = delete i (c_thr c) →
  ∀ j t' ei, m !! j = Some t' → tevt t' = Some ei → ∃ k t2, c_thr c !! k = Some t2 ∧ tevt t2 = Some ei.
Proof. intros -> j t' ei [_ ?]%lookup_delete_Some. eauto. Qed.
Lemma keep_same (c : cfg) (m : gmap nat thr) :
  m = c_thr c →
  ∀ j t' ei, m !! j = Some t' → tevt t' = Some ei → ∃ k t2, c_thr c !! k = Some t2 ∧ tevt t2 = Some ei.
Proof. intros ->. eauto. Qed.
Lemma oinv_step ls c l c' :
  oinv ls c → step c l c' → (∀ i ei, l = LTake i ei → idle c) → oinv (ls ++ [l]) c'.
Proof.
  intros Ho Hs Hid.
  assert (∀ c' l, reports [l] = [] → picked [l] = [] → c_q c' = c_q c →
    (∃ i t t0, c_thr c !! i = Some t0 ∧ c_thr c' = <[i := t]> (c_thr c) ∧ (tevt t = None ∨ tevt t = tevt t0)) → oinv (ls ++ [l]) c') as Hins.
  { intros c2 l2 ??? (i&t&t0&?&?&?). eapply oinv_same; [done..|]. by eapply keep_ins. }
  assert (∀ c' l, reports [l] = [] → picked [l] = [] → c_q c' = c_q c →
    (∃ i, c_thr c' = delete i (c_thr c)) → oinv (ls ++ [l]) c') as Hdel.
  { intros c2 l2 ??? (i&?). eapply oinv_same; [done..|]. by eapply keep_del. }
  assert (∀ c' l, reports [l] = [] → picked [l] = [] → c_q c' = c_q c → c_thr c' = c_thr c → oinv (ls ++ [l]) c') as Hsame.
  { intros. eapply oinv_same; [done..|]. by eapply keep_same. }
  inversion Hs; subst; clear Hs.
  - eapply oinv_same; [done..|]. by eapply keep_new.
  - destruct Ho as (tk&H1&H2&H3). exists tk. rewrite reports_snoc, picked_snoc, H1, app_nil_r. simpl.
    split_and!; [by rewrite <-app_assoc|done|done].
  - specialize (Hid _ _ eq_refl). destruct Ho as (tk&H1&H2&H3). exists (tk ++ [ei]).
    rewrite reports_snoc, picked_snoc, H1, H, !app_nil_r. simpl. split_and!; [by rewrite <-app_assoc|by apply in_order_more|].
    intros i t ei'. destruct (decide (i = c_next c)) as [->|].
    + rewrite lookup_insert. intros [= <-] [= <-]. by exists tk.
    + rewrite lookup_insert_ne by done. intros Hi He. exfalso. destruct (Hid i ei') as [K1 K2].
      destruct t as [| | |]; simpl in He; simplify_eq; first [by apply K1|by eapply K2].
  - apply Hins; [done..|]. eexists _, _, _. split_and!; [done|reflexivity|by left].
  - apply Hins; [done..|]. eexists _, _, _. split_and!; [done|reflexivity|by left].
  - apply Hins; [done..|]. eexists _, _, _. split_and!; [done|reflexivity|by left].
  - apply Hins; [done..|]. eexists _, _, _. split_and!; [done|reflexivity|by left].
  - apply Hdel; [done..|]. by eexists.
  - apply Hins; [done..|]. eexists _, _, _. split_and!; [done|reflexivity|by right].
  - (* offer *) destruct Ho as (tk&H1&H2&H3). exists tk. rewrite reports_snoc, picked_snoc, H1, app_nil_r. simpl.
    split_and!; [done| |].
    + destruct (H3 _ _ ei H eq_refl) as [a ->]. destruct (decide (n0 = n)); simpl.
      * destruct (g sent); [by apply in_order_again|by rewrite app_nil_r].
      * by rewrite app_nil_r.
    + intros j t ei'. destruct (decide (j = i)) as [->|].
      * rewrite lookup_insert. intros [= <-] [= <-]. by eapply H3.
      * rewrite lookup_insert_ne by done. apply H3.
  - apply Hins; [done|done|by destruct (decide (length _ < _)%nat)|]. eexists i, _, _.
    split_and!; [done|by destruct (decide (length _ < _)%nat)|by right].
  - apply Hins; [done..|]. eexists _, _, _. split_and!; [done|reflexivity|by right].
  - destruct fwd.
    + apply Hins; [done..|]. eexists _, _, _. split_and!; [done|reflexivity|by left].
    + apply Hdel; [done..|]. by eexists.
  - apply Hdel; [done..|]. by eexists.
  - by apply Hsame.
  - by apply Hsame.
  - by apply Hsame.
  - by apply Hsame.
  - by apply Hsame.
  - by apply Hsame.
Qed.
Lemma picked_in_order ls c : one_by_one ls c → in_order (picked ls) (reports ls).
Proof.
  intros Hr. assert (oinv ls c) as (tk&->&H2&_); [|by apply in_order_app].
  induction Hr as [|ls c l c' Hr IH Hs Hid]; [|by eapply oinv_step].
  exists []. split_and!; [done|apply in_order_nil|]. intros i t ei. simpl. by rewrite lookup_empty.
Qed.
End order.
Lemma offers_picked n ls : offers n ls = picked n (λ _, true) ls.
Proof. unfold offers, picked. apply list_omap_ext, Forall_Forall2_diag, Forall_forall. intros [] _; try done. Qed.
Lemma sent_picked n ls : sent n ls = picked n id ls.
Proof.
  unfold sent, picked. apply list_omap_ext, Forall_Forall2_diag, Forall_forall. intros [| | | | |? ? ? []| |] _; try done.
  simpl. by destruct (decide _).
Qed.

(** ** Whole calls and whole deliveries, while nothing else happens *)
Section whole.
Context (T : tree_ops) (env_good : env → Prop) (call_ok : nop → Prop) (ev_ok : event_info → Prop).
Notation run := (run T env_good call_ok ev_ok).
Lemma run_whole_call E ls c o s r :
  env_good E → run ls c → c_lock c = None → no_readers c → call_ok o →
  t_call T E (c_st c) o = (s, r) → st_panic s = false →
  run (ls ++ [LCall (c_next c) o; LTau; LTau; LCrit (c_next c) o r; LTau; LRet (c_next c) o r])
    (Cfg s (c_thr c) (S (c_next c)) (c_int c) None (c_q c) (c_rec c)).
Proof.
  intros HE Hr Hl Hn Ho Hs Hp. set (i := c_next c).
  pose proof (li_fresh _ (run_linv _ _ _ _ _ _ Hr) i ltac:(lia)) as Hf.
  assert (run (ls ++ [LCall i o]) (new_thr c (TCall o WWant))) as R1 by (econstructor; [done|by constructor]).
  eapply run_step in R1; [|eapply (s_want _ _ _ _ _ i); [apply lookup_insert|done]].
  eapply run_step in R1; [|eapply (s_lock _ _ _ _ _ i); [apply lookup_insert|]].
  2: { intros j ei ks fwd. simpl. rewrite insert_insert. intros [[_ ?]|[_ ?]]%lookup_insert_Some; [done|by eapply Hn]. }
  eapply run_step in R1; [|eapply (s_crit _ _ _ _ _ i o E s r); [apply lookup_insert|exact HE|exact Hs|done]].
  eapply run_step in R1; [|eapply (s_unlock _ _ _ _ _ i); apply lookup_insert].
  eapply run_step in R1; [|eapply (s_ret _ _ _ _ _ i); apply lookup_insert].
  rewrite <-!app_assoc in R1. simpl app in R1.
  match type of R1 with TreeConc.run _ _ _ _ _ ?c' =>
    assert (c' = Cfg s (c_thr c) (S (c_next c)) (c_int c) None (c_q c) (c_rec c)) as Heq end; [|rewrite Heq in R1; exact R1].
  unfold end_thr at 1. f_equal.
  change (delete i (<[i := TCall o (WFree r)]> (<[i := TCall o (WLeft r)]> (<[i := TCall o WHold]>
    (<[i := TCall o WWait]> (<[i := TCall o WWant]> (c_thr c)))))) = c_thr c).
  rewrite !insert_insert. by apply delete_insert.
Qed.
Lemma run_report ls c ei :
  run ls c → ev_ok ei → (length (c_q c) < buffer)%nat → run (ls ++ [LReport ei]) (set_q c (c_q c ++ [ei])).
Proof. intros. econstructor; [done|by constructor]. Qed.
Lemma run_take ls c ei q :
  run ls c → c_q c = ei :: q → run (ls ++ [LTake (c_next c) ei]) (new_thr (set_q c q) (TEvt ei)).
Proof. intros. econstructor; [done|by constructor]. Qed.
(** A goroutine that has its event to offer to one channel, or to nobody. *)
Lemma run_deliver E ls c i ei n fwd :
  env_good E → run ls c → c_lock c = None → c_thr c !! i = Some (TEvt ei) → t_disp T E (st_tree (c_st c)) ei = ([KUser n], fwd) →
  run (ls ++ [LTau; LOffer i n ei true; LTau])
    (if fwd then set_thr c i (TFwd ei) else end_thr c i).
Proof.
  intros HE Hr Hl Hi Hd.
  eapply run_step in Hr; [|eapply (s_rlock _ _ _ _ _ i ei E); [exact Hi|done|exact HE|exact Hd]].
  eapply run_step in Hr; [|eapply (s_offer _ _ _ _ _ i ei n [] fwd true); apply lookup_insert].
  eapply run_step in Hr; [|eapply (s_runlock _ _ _ _ _ i); apply lookup_insert].
  rewrite <-!app_assoc in Hr. simpl app in Hr. clear Hd. destruct fwd.
  - unfold set_thr at 1 in Hr. cbn [set_thr c_st c_thr c_next c_int c_lock c_q c_rec] in Hr. rewrite !insert_insert in Hr. exact Hr.
  - unfold end_thr at 1 in Hr. cbn [set_thr c_st c_thr c_next c_int c_lock c_q c_rec] in Hr.
    rewrite insert_insert, delete_insert_delete in Hr. exact Hr.
Qed.
End whole.
