(** * BsdGoneEx: an instance of C93_gone_below_partial *)
From Verif Require Import Base Event Watchpoint WatchpointFacts Paths PathsFacts Loop Node SpecTree NonRec SpecNonRec SpecNonRecOS SpecOS
  Clean SpecClean CleanFacts Trigger SpecTrigger TriggerFacts SpecKq KqMon KqMonFacts KqCreate KqGone
  TreeConc SpecTreeConc TreeConcFacts SpecTreeDeliver TreeDeliverFacts Prop_TreeConc Prop_TreeDeliver BsdConc BsdConcFacts.
From Verif Require Import TriggerEx NonRecRun Prop_BsdConc.
From Verif Require SpecTriggerFds LinuxConcFacts NonRecReg NonRecRun Prop_NonRec Prop_Kq Prop_Linux Prop_KqMon.
Local Open Scope N_scope.
Local Ltac noreaders := let H := fresh in intros ? ? ? ? H; simpl in H;
  repeat first [apply lookup_insert_Some in H as [[? ?]|[? H]]; [congruence|]|apply lookup_delete_Some in H as [? H]|by rewrite lookup_empty in H].
Local Ltac tr tac := idtac; match goal with Hr : bruns _ _ _ |- _ => eapply bruns_snoc in Hr; [|eapply b_tree; [tac|done]] end.

(** Channel 1 watches /a recursively for Remove; in it is the directory /a/b, in that the file
    f, which is removed. *)
Definition wh : nop := NWatch (pth "a") true 1 (Remove kqueue).
Definition th : st := (nstep slash Gb init_st wh).1.
Definition eh : N := Remove kqueue .| Create kqueue.
Definition zh : tevent := TE qabf (Remove kqueue) false.
Definition cha : cmd := XWatch (Some true) Ab qa eh.
Definition chb : cmd := XWatch (Some true) Ab qab eh.
Definition chn : cmd := XEvent None Ab (inl 3%nat) NoteDelete.
Lemma wh_th : nstep slash Gb init_st wh = (th, ok).
Proof. assert ((nstep slash Gb init_st wh).2 = ok) as H by (by vm_compute). unfold th. by rewrite <-(Prop_TreeConc.pair_snd _ _ H). Qed.
Lemma th_log : st_log th = [(WWatch qa eh, true); (WWatch qab eh, true)] ∧ st_panic th = false.
Proof. by vm_compute. Qed.
Lemma th_zh : nr_dispatch Gb (st_tree th) (te_info zh) = ([KUser 1], false).
Proof. by vm_compute. Qed.
Lemma lab_ha : lab [] cha = TWatch (Some true) Ab qa eh ROk.
Proof. by vm_compute. Qed.
Lemma lab_hb : lab [cha] chb = TWatch (Some true) Ab qab eh ROk.
Proof. by vm_compute. Qed.
Lemma lab_hn : lab [cha; chb] chn = TEvent None Ab (keys_of (after [cha; chb])) (inl 3%nat) NoteDelete [zh].
Proof.
  change (lab [cha; chb] chn) with (TEvent None Ab (keys_of (after [cha; chb])) (inl 3%nat) NoteDelete (TriggerEx.sent (lab [cha; chb] chn))).
  assert (TriggerEx.sent (lab [cha; chb] chn) = [zh]) as -> by (by vm_compute). done.
Qed.
Lemma owner_h : owner (after [cha; chb]) 3 = Some qabf.
Proof. by vm_compute. Qed.
Lemma usual_h c out cs : c_st c = th → usual (pth "a/b") qabf (BS c (KS (after [cha; chb]) ∅ None) out cs).
Proof.
  intros Hc. exists tyb. unfold usual. cbn [b_c b_k k_t]. rewrite Hc. destruct th_log as (-> & _).
  eexists _, _. split; [|split; [|split]].
  - pose proof (Prop_KqMon.lab_step [] cha) as Hs. rewrite lab_ha in Hs.
    assert (kdrives kq tyb [(WWatch qa eh, true)] (relisted (λ _, False) qa in_a) (role_watch no_roles qa in_a eh) (after [cha])) as K.
    { refine (kd_watch kq tyb [] _ _ _ Ab qa eh in_a ROk _ (kd_init _ _) (kind_willing _) _ _ _ _ _ Hs); clear.
      + done.
      + by vm_compute.
      + exists (pth "a"). split; [|by vm_compute]. apply (bool_decide_unpack _); by vm_compute.
      + split; [by vm_compute|apply Forall_singleton; by vm_compute].
      + apply Forall_singleton. apply (bool_decide_unpack _); by vm_compute. }
    pose proof (Prop_KqMon.lab_step [cha] chb) as Hs2. rewrite lab_hb in Hs2.
    refine (kd_watch kq tyb [_] _ _ _ Ab qab eh in_ab ROk _ K (kind_willing _) _ _ _ _ _ Hs2); clear.
    + done.
    + by vm_compute.
    + exists (pth "a/b"). split; [|by vm_compute]. apply (bool_decide_unpack _); by vm_compute.
    + split; [by vm_compute|apply Forall_singleton; by vm_compute].
    + apply Forall_singleton. apply (bool_decide_unpack _); by vm_compute.
  - by vm_compute.
  - right. left. apply (bool_decide_unpack _). by vm_compute.
  - by vm_compute.
Qed.
Definition h_l2 : list blab := [BTree LTau; BTree LTau; BKq (KCall (lab [] cha)); BKq (KCall (lab [cha] chb))].
Definition h_before : list blab := [BTree LTau] ++ BTree (LRet 0 wh ok) :: [].
Definition h_l5 : list blab := [BKq (KTake 3 NoteDelete); BKq (KProc (Some qabf) (lab [cha; chb] chn)); BSend zh; BTree (LTake 1 (te_info zh)); BTree LTau;
  BTree (LOffer 1 1 (te_info zh) true); BTree LTau].
Definition h_after : list blab := h_before ++ BKq (KNote 3 NoteDelete qabf) :: h_l5.
Opaque th.
Lemma wh_good : os_good Gb wh.
Proof. split; [done|]. split; [|exact (reliable_allok kqueue Fb)]. apply (bool_decide_unpack _). by vm_compute. Qed.
Example C93_gone_below_ex : ∃ B1 B2 B, let w := watched [] 0 (pth "a") true 1 (Remove kqueue) h_l2 in
  bfrun w [(wh, ok)] Fb B1 ∧ usual (pth "a/b") qabf B1 ∧ bruns B1 h_before B2 ∧
  none_gone (b_k B2) 3 ∧ bruns B2 (BKq (KNote 3 NoteDelete qabf) :: h_l5) B ∧ at_rest B ∧
  no_stop_since [] (btrees (w ++ h_after)) 1 ∧ not_removed kqueue slash (btrees (w ++ h_after)) (pth "a") ∧
  (∀ z, BKq z ∈ h_before → spares z qabf) ∧ (∀ z, BKq z ∈ h_l5 → spares z qabf ∨ gives_up z qabf) ∧
  sound (w ++ h_after) ∧ (∀ ev b, BSend (TE qabf ev b) ∈ h_after → incl_ev ev (Remove kqueue)) ∧
  pth "a/b" ∈ Fb ∧ pth "a" `prefix_of` pth "a/b" ∧ qabf = render slash (pth "a/b" ++ [b "f"]) ∧ Forall proper (pth "a/b") ∧ proper (b "f") ∧
  NoteDelete .& native_gone kq ≠ 0 ∧ SpecTrigger.reported kq NoteDelete (Remove kqueue).
Proof.
  destruct th_log as (L&Pn). pose proof (bf_init Fb Fb_ok) as Hf. unfold binit in Hf.
  eapply bf_other in Hf; [|eapply b_tree; [eapply (s_call _ _ _ _ _ wh); split; [done|]; apply nop_okb_ok; by vm_compute|done]|done|done|done].
  eapply bf_other in Hf; [|eapply b_tree; [eapply (s_want _ _ _ _ _ 0%nat); reflexivity|done]|done|done|done].
  eapply bf_other in Hf; [|eapply b_tree; [eapply (s_lock _ _ _ _ _ 0%nat); [reflexivity|noreaders]|done]|done|done|done].
  eapply bf_other in Hf; [|eapply (b_call _ _ _ _ (lab [] cha) (KS (after [cha]) ∅ None));
    [apply (k_call (after []) ∅ None (lab [] cha)); [done|exact next_fd_fresh|apply (Prop_KqMon.lab_step [] cha)|apply nd_empty]|left; exists 0%nat, wh; reflexivity]|done|done|done].
  eapply bf_other in Hf; [|eapply (b_call _ _ _ _ (lab [cha] chb) (KS (after [cha; chb]) ∅ None));
    [apply (k_call (after [cha]) ∅ None (lab [cha] chb)); [done|exact next_fd_fresh|apply (Prop_KqMon.lab_step [cha] chb)|apply nd_empty]|left; exists 0%nat, wh; reflexivity]|done|done|done].
  eapply bf_call in Hf; [|eapply (b_crit _ _ _ _ 0%nat wh Gb th ok); [reflexivity|apply mkenv_nenv, Fb_ok|exact wh_good|exact wh_th|exact Pn|rewrite L, lab_ha, lab_hb; repeat constructor]
    |apply mkenv_nenv, Fb_ok|exact wh_good|apply mkenv_fs, Fb_ok|exact wh_th].
  match type of Hf with bfrun _ _ _ ?B => exists B end. eexists. eexists. cbv zeta. split; [exact Hf|]. split; [by apply usual_h|]. clear Hf.
  match goal with |- bruns ?B _ _ ∧ _ => pose proof (bruns_nil B) as Hr end.
  tr ltac:(eapply (s_unlock _ _ _ _ _ 0%nat); reflexivity).
  tr ltac:(eapply (s_ret _ _ _ _ _ 0%nat); reflexivity).
  split; [exact Hr|]. clear Hr. split; [intros g [Hg|Hg]; [cbn in Hg; by rewrite lookup_empty in Hg|done]|].
  match goal with |- bruns ?B _ _ ∧ _ => pose proof (bruns_nil B) as Hr end.
  eapply bruns_snoc in Hr; [|eapply b_note; apply (k_note (after [cha; chb]) ∅ None 3 NoteDelete qabf NoteDelete); [exact owner_h|by vm_compute|done|by intros j Hj]].
  eapply bruns_snoc in Hr; [|eapply b_take; apply k_take; by rewrite lookup_insert].
  eapply bruns_snoc in Hr; [|pose proof (Prop_KqMon.lab_step [cha; chb] chn) as Hs; rewrite lab_hn in Hs; eapply b_proc;
    apply (k_proc (after [cha; chb]) _ 3 NoteDelete None Ab (keys_of (after [cha; chb])) [zh] (after [cha; chb; chn]) ∅); [exact next_fd_fresh|exact Hs|]].
  2: { intros fd. assert ((delete 3%nat (<[3%nat := default 0 ((∅ : gmap nat N) !! 3%nat) .| NoteDelete]> (∅ : gmap nat N))) = ∅) as -> by (apply (delete_insert (∅ : gmap nat N) 3%nat); apply lookup_empty). apply nd_empty. }
  eapply bruns_snoc in Hr; [|eapply (b_send _ _ zh); eapply s_report; [done|simpl; unfold buffer; lia]].
  tr ltac:(eapply s_take; reflexivity).
  tr ltac:(eapply (s_rlock _ _ _ _ _ 1%nat (te_info zh) Gb); [reflexivity|done|apply mkenv_nenv, Fb_ok|exact th_zh]).
  tr ltac:(eapply (s_offer _ _ _ _ _ 1%nat _ 1%positive _ _ true); reflexivity).
  tr ltac:(eapply (s_runlock _ _ _ _ _ 1%nat); reflexivity).
  split.
  { unfold h_l5. rewrite lab_hn. rewrite owner_h in Hr. exact Hr. }
  split.
  { refine (conj (conj _ (conj _ (conj _ _))) (conj _ (conj _ _))); [apply map_to_list_empty_iff|..].
    1: vm_compute; reflexivity.
    all: reflexivity. }
  clear. refine (conj _ (conj _ (conj _ (conj _ (conj _ (conj _ (conj _ (conj _ (conj _ (conj _ (conj _ (conj _ _)))))))))))).
  - intros k Hk. exfalso. unfold watched, h_l2, h_after, h_before, h_l5 in Hk. rewrite lab_ha, lab_hb, lab_hn in Hk. cbn in Hk.
    repeat (apply elem_of_cons in Hk as [Hk|Hk]; [discriminate Hk|]). by apply elem_of_nil in Hk.
  - intros ei q Hk. exfalso. unfold watched, h_l2, h_after, h_before, h_l5 in Hk. rewrite lab_ha, lab_hb, lab_hn in Hk. cbn in Hk.
    repeat (apply elem_of_cons in Hk as [Hk|Hk]; [discriminate Hk|]). by apply elem_of_nil in Hk.
  - intros x Hx. unfold h_before in Hx. cbn [app] in Hx. repeat (apply elem_of_cons in Hx as [Hx|Hx]; [discriminate Hx|]). by apply elem_of_nil in Hx.
  - intros x Hx. unfold h_l5 in Hx. rewrite lab_hn in Hx.
    repeat (apply elem_of_cons in Hx as [Hx|Hx]; [first [discriminate Hx|injection Hx as ->]|]); [left; exact I| |by apply elem_of_nil in Hx].
    right. exists None, Ab, (keys_of (after [cha; chb])), (inl 3%nat), NoteDelete, [zh]. split; [done|]. by vm_compute.
  - intros e He. unfold watched, h_l2, h_after, h_before, h_l5 in He. rewrite lab_ha, lab_hb, lab_hn in He. cbn [app] in He.
    repeat (apply elem_of_cons in He as [He|He]; [first [discriminate He|injection He as ->]|]); [|by apply elem_of_nil in He].
    split_and!; [done|by apply land_zero_disj|]. exists (pth "a/b/f"). split; [|by vm_compute]. apply Prop_Linux.proper_upath; [done|]. apply (bool_decide_unpack _); by vm_compute.
  - intros ev b He. unfold h_after, h_before, h_l5 in He. rewrite lab_hn in He. cbn [app] in He.
    repeat (apply elem_of_cons in He as [He|He]; [first [discriminate He|injection He as -> _]|]); [by intros j Hj|by apply elem_of_nil in He].
  - apply (bool_decide_unpack _); by vm_compute.
  - exists [b "b"]. by vm_compute.
  - by vm_compute.
  - apply (bool_decide_unpack _); by vm_compute.
  - apply (bool_decide_unpack _); by vm_compute.
  - by vm_compute.
  - right. exists NoteDelete. split; [apply (bool_decide_unpack _); by vm_compute|by vm_compute].
Qed.
