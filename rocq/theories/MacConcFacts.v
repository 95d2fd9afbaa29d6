(** * MacConcFacts: proofs about the macOS watcher under concurrency *)
From Verif Require Import Base Event Paths PathsFacts Node SpecOS Fsev SpecFsev FsevFacts MacConc SpecMacConc.
Local Open Scope N_scope.

(** ** Phases of a watch *)
Inductive phase :=
  | PNew | PCre (r : N) | PIns (r : N) | PTab (p : str) (r : N) | PUnreg (p : str) | PDel (p : str) | PFail | PGone.
Definition transient (h : phase) : Prop :=
  match h with PNew | PCre _ | PIns _ | PUnreg _ | PDel _ => True | _ => False end.
Definition registered (h : phase) : Prop := match h with PDel _ | PGone => False | _ => True end.
Definition in_tab (h : phase) (p : str) : Prop :=
  match h with PTab q _ | PUnreg q | PDel q => q = p | _ => False end.
Definition stream_of (h : phase) (r : N) : Prop := match h with PCre q | PIns q | PTab _ q => q = r | _ => False end.
Definition runs (h : phase) (r : N) : Prop := match h with PIns q | PTab _ q => q = r | _ => False end.
(** The stream may have callbacks in the queue. *)
Definition may_pend (h : phase) : Prop := match h with PNew | PCre _ | PFail => False | _ => True end.

Definition pc_ok (s : mst) (ph : gmap N phase) : Prop :=
  match m_call s with
  | None => ∀ w h, ph !! w = Some h → ¬ transient h
  | Some (c, CNew p e k) => m_tab s !! p = None ∧ ∀ w h, ph !! w = Some h → ¬ transient h
  | Some (c, CCreate p w) => m_tab s !! p = None ∧ ph !! w = Some PNew ∧ ∀ w' h, ph !! w' = Some h → transient h → w' = w
  | Some (c, CStart p w r) => m_tab s !! p = None ∧ ph !! w = Some (PCre r) ∧ ∀ w' h, ph !! w' = Some h → transient h → w' = w
  | Some (c, CIns p w r) => m_tab s !! p = None ∧ ph !! w = Some (PIns r) ∧ ∀ w' h, ph !! w' = Some h → transient h → w' = w
  | Some (c, CStop p w cont) => m_tab s !! p = Some w ∧ (∃ r, ph !! w = Some (PTab p r)) ∧ (∀ w' h, ph !! w' = Some h → ¬ transient h) ∧
      match cont with None => True | Some (q, e) => m_tab s !! q = None end
  | Some (c, CUnreg p w cont) => m_tab s !! p = Some w ∧ ph !! w = Some (PUnreg p) ∧ (∀ w' h, ph !! w' = Some h → transient h → w' = w) ∧
      match cont with None => True | Some (q, e) => m_tab s !! q = None end
  | Some (c, CDel p w cont) => m_tab s !! p = Some w ∧ ph !! w = Some (PDel p) ∧ (∀ w' h, ph !! w' = Some h → transient h → w' = w) ∧
      match cont with None => True | Some (q, e) => m_tab s !! q = None end
  | Some (c, CRec w k) => (∃ p, m_tab s !! p = Some w) ∧ ∀ w h, ph !! w = Some h → ¬ transient h
  end.
(** What does not change often: the number, the path and the stream of each watch. *)
Record ob := Ob { k_info : N; k_path : str; k_ref : option N }.
Definition erase (o : wobj) : ob := Ob (o_info o) (fw_path (o_w o)) (o_ref o).
Definition K (s : mst) : gmap N ob := erase <$> m_objs s.
Definition pc_path (s : mst) : Prop :=
  match m_call s with
  | Some (_, CCreate p w) | Some (_, CStart p w _) | Some (_, CIns p w _) => ∀ o, K s !! w = Some o → k_path o = p
  | _ => True
  end.
Record inv (s : mst) (ph : gmap N phase) : Prop := {
  i_dom : ∀ w, is_Some (ph !! w) ↔ is_Some (K s !! w);
  i_cnt : ∀ w o, K s !! w = Some o → k_info o ≤ m_cnt s;
  i_inj : ∀ w o w' o', K s !! w = Some o → K s !! w' = Some o' → k_info o = k_info o' → w = w';
  i_reg : ∀ i w, m_reg s !! i = Some w → ∃ o h, K s !! w = Some o ∧ k_info o = i ∧ ph !! w = Some h ∧ registered h;
  i_reg2 : ∀ w o h, K s !! w = Some o → ph !! w = Some h → registered h → m_reg s !! k_info o = Some w;
  i_os : ∀ r x, m_os s !! r = Some x → ∃ w o, K s !! w = Some o ∧ k_info o = os_info x ∧ k_path o = os_path x;
  i_run : ∀ r x w o h, m_os s !! r = Some x → K s !! w = Some o → k_info o = os_info x → ph !! w = Some h →
            (os_run x = true ↔ runs h r) ∧ h ≠ PNew ∧ (∀ r', stream_of h r' → r' = r);
  i_str : ∀ w o h r, K s !! w = Some o → ph !! w = Some h → stream_of h r → ∃ x, m_os s !! r = Some x ∧ os_info x = k_info o;
  i_ref : ∀ w o p r, K s !! w = Some o → ph !! w = Some (PTab p r) → k_ref o = Some r;
  i_path : ∀ w o h p, K s !! w = Some o → ph !! w = Some h → in_tab h p → k_path o = p;
  i_tab : ∀ p w, m_tab s !! p = Some w ↔ ∃ h, ph !! w = Some h ∧ in_tab h p;
  i_pend : ∀ r evs, (r, evs) ∈ m_pend s → ∃ x w o h, m_os s !! r = Some x ∧ K s !! w = Some o ∧ k_info o = os_info x ∧
             ph !! w = Some h ∧ may_pend h;
  i_begun : ∀ r w b, (r, w, b) ∈ m_begun s → ∃ x o, m_os s !! r = Some x ∧ K s !! w = Some o ∧ os_info x = k_info o;
  i_q : match m_q s with
        | QFound r w _ | QEv r w _ _ => ∃ x o, m_os s !! r = Some x ∧ K s !! w = Some o ∧ os_info x = k_info o
        | QRun w _ _ _ _ => is_Some (K s !! w) | QIdle => True end;
  i_fail : ∀ w, ph !! w = Some PFail → ∃ c, (c, Some ErrStart) ∈ m_log s;
  i_pc : pc_ok s ph;
  i_pcpath : pc_path s;
}.

(** A watch that was unwatched, or failed. *)
Definition dead (h : phase) : Prop := h = PFail ∨ h = PGone.
Definition keeps_dead (ph ph' : gmap N phase) : Prop := ∀ w h, ph !! w = Some h → dead h → ph' !! w = Some h.

Lemma K_insert s w o : erase <$> <[w := o]> (m_objs s) = <[w := erase o]> (K s).
Proof. unfold K. by rewrite fmap_insert. Qed.
Lemma K_same s w o o' : m_objs s !! w = Some o → erase o' = erase o → erase <$> <[w := o']> (m_objs s) = K s.
Proof. intros H E. rewrite K_insert, E. apply insert_id. unfold K. by rewrite lookup_fmap, H. Qed.
Lemma K_lookup s w o : m_objs s !! w = Some o → K s !! w = Some (erase o).
Proof. unfold K. rewrite lookup_fmap. by intros ->. Qed.
Lemma K_None s w : m_objs s !! w = None → K s !! w = None.
Proof. unfold K. rewrite lookup_fmap. by intros ->. Qed.

(** Steps that change nothing but the call, the log, and what was sent. *)
Lemma inv_frame s s' ph : inv s ph → K s' = K s → m_reg s' = m_reg s → m_cnt s' = m_cnt s → m_tab s' = m_tab s → m_os s' = m_os s →
  (∀ x, x ∈ m_pend s' → x ∈ m_pend s) → m_begun s' = m_begun s →
  match m_q s' with
  | QFound r w _ | QEv r w _ _ => ∃ x o, m_os s !! r = Some x ∧ K s !! w = Some o ∧ os_info x = k_info o
  | QRun w _ _ _ _ => is_Some (K s !! w) | QIdle => True end →
  (∀ x, x ∈ m_log s → x ∈ m_log s') → pc_ok s' ph → pc_path s' → inv s' ph.
Proof.
  intros I EK Er Ec Et Eo Ep Eb Hq El Hpc Hpp. destruct I. split; rewrite ?EK, ?Er, ?Ec, ?Et, ?Eo, ?Eb; try done.
  - intros r evs H. apply (i_pend0 r evs), Ep, H.
  - intros w H. destruct (i_fail0 w H) as [c Hc]. exists c. by apply El.
Qed.
Lemma pc_ok_tab s s' ph : m_call s' = m_call s → m_tab s' = m_tab s → pc_ok s ph → pc_ok s' ph.
Proof. intros H1 H2. unfold pc_ok. by rewrite H1, H2. Qed.
Lemma pc_path_K s s' : m_call s' = m_call s → K s' = K s → pc_path s → pc_path s'.
Proof. intros H1 H2. unfold pc_path. by rewrite H1, H2. Qed.

Lemma inv_ret s ph c err : inv s ph → (∀ w h, ph !! w = Some h → ¬ transient h) → inv (ret s c err) ph.
Proof.
  intros I H. apply (inv_frame s); try done; try (by apply (i_q _ _ I)).
  intros x Hx. cbn. apply elem_of_app. by left.
Qed.
Lemma inv_goto s ph c pc : inv s ph → pc_ok (goto s c pc) ph → pc_path (goto s c pc) → inv (goto s c pc) ph.
Proof. intros I H1 H2. apply (inv_frame s); try done. by apply (i_q _ _ I). Qed.
Lemma begin_tab s ph p w : inv s ph → m_call s = None → m_tab s !! p = Some w → ∃ r, ph !! w = Some (PTab p r).
Proof.
  intros I Hc H. apply (i_tab _ _ I) in H as (h&Hh&Hin). pose proof (i_pc _ _ I) as Hpc. unfold pc_ok in Hpc. rewrite Hc in Hpc.
  specialize (Hpc w h Hh). destruct h; simpl in *; try done; subst; try done. by eexists.
Qed.
Lemma begin_inv s ph c : inv s ph → m_call s = None → inv (m_begin s c) ph.
Proof.
  intros I Hc. pose proof (i_pc _ _ I) as Hpc. unfold pc_ok in Hpc. rewrite Hc in Hpc.
  assert (∀ p w, m_tab s !! p = Some w → inv (goto s c (CStop p w None)) ph) as Hstop.
  { intros p w H. apply inv_goto; [done| |done]. cbn. split_and!; try done. by apply (begin_tab s). }
  assert (∀ p e k, m_tab s !! p = None → inv (goto s c (CNew p e k)) ph) as Hnew.
  { intros p e k H. apply inv_goto; [done| |done]. by cbn. }
  assert (∀ p old new k, inv (m_swap s c p old new k) ph) as Hswap.
  { intros p old new k. unfold m_swap. destruct (m_tab s !! p) as [w|] eqn:E; [|by apply inv_ret].
    destruct (m_objs s !! w) as [o|] eqn:Eo; [|done]. destruct (_ =? _); [|by apply inv_ret].
    apply (inv_frame s); try done.
    - cbn. by eapply K_same.
    - apply (i_q _ _ I).
    - cbn. split; [|done]. by exists p. }
  unfold m_begin. destruct c as [p e|p|p old new|p e|p|p q old new].
  - destruct (m_tab s !! p) eqn:E; [by apply inv_ret|by apply Hnew].
  - destruct (m_tab s !! p) eqn:E; [by apply Hstop|by apply inv_ret].
  - apply Hswap.
  - destruct (m_tab s !! p) eqn:E; [by apply inv_ret|by apply Hnew].
  - destruct (m_tab s !! p) eqn:E; [by apply Hstop|by apply inv_ret].
  - case_bool_decide.
    + destruct (_ =? _); [|apply Hswap]. destruct (m_tab s !! p) eqn:E; [|by apply inv_ret].
      apply inv_goto; [done| |done]. cbn. split; [|done]. by exists p.
    + destruct (m_tab s !! q) eqn:Eq; [by apply inv_ret|]. destruct (m_tab s !! p) eqn:E; [|by apply inv_ret].
      apply inv_goto; [done| |done]. cbn. split_and!; try done. by apply (begin_tab s).
Qed.

Ltac lks := repeat match goal with
  | H : <[_:=_]> _ !! _ = Some _ |- _ => apply lookup_insert_Some in H as [[? ?]|[? H]]; subst
  | H : delete _ _ !! _ = Some _ |- _ => apply lookup_delete_Some in H as [? H]
  end.

(** A new watch. *)
Lemma new_inv s ph c p e k w : inv s ph → m_call s = Some (c, CNew p e k) → m_objs s !! w = None →
  inv (goto (set_reg (set_cnt (set_objs s (<[w := WObj (FWatch ∅ p e k false) None (m_cnt s + 1)]> (m_objs s)))
                                      (m_cnt s + 1)) (<[m_cnt s + 1 := w]> (m_reg s))) c (CCreate p w)) (<[w := PNew]> ph).
Proof.
  intros I Hc Hw. pose proof (i_pc _ _ I) as Hpc. unfold pc_ok in Hpc. rewrite Hc in Hpc. destruct Hpc as [Htab Htr].
  pose proof (K_None _ _ Hw) as HK.
  assert (ph !! w = None) as Hph.
  { apply eq_None_not_Some. rewrite (i_dom _ _ I), HK. by intros [? [=]]. }
  assert (m_reg s !! (m_cnt s + 1) = None) as Hreg.
  { destruct (m_reg s !! _) as [v|] eqn:E; [|done]. apply (i_reg _ _ I) in E as (o&h&H1&H2&_). apply (i_cnt _ _ I) in H1. lia. }
  set (s' := goto _ _ _). assert (K s' = <[w := Ob (m_cnt s + 1) p None]> (K s)) as EK by apply K_insert.
  assert (pc_path s') as HP.
  { unfold pc_path. cbn [m_call s' goto set_call]. rewrite EK. intros o. rewrite lookup_insert. by intros [= <-]. }
  split; try exact HP; rewrite ?EK; unfold s'; cbn.
  - intros v. destruct (decide (v = w)) as [->|Hne]; [by rewrite !lookup_insert|]. rewrite !lookup_insert_ne by done. apply I.
  - intros v o H. lks; cbn; [lia|]. apply (i_cnt _ _ I) in H. lia.
  - intros v o v' o' H1 H2 E. lks; cbn in *; try done.
    + apply (i_cnt _ _ I) in H1. lia.
    + apply (i_cnt _ _ I) in H2. lia.
    + by apply (i_inj _ _ I v o v' o').
  - intros i v H. lks.
    + exists (Ob (m_cnt s + 1) p None), PNew. by rewrite !lookup_insert.
    + apply (i_reg _ _ I) in H as (o&h&H1&H2&H3&H4). exists o, h. rewrite !lookup_insert_ne by congruence. done.
  - intros v o h H1 H2 H3. lks; cbn; [by rewrite lookup_insert|done..|].
    rewrite lookup_insert_ne; [by eapply (i_reg2 _ _ I)|]. apply (i_cnt _ _ I) in H1. lia.
  - intros r x H. apply (i_os _ _ I) in H as (v&o&H1&H2&H3). exists v, o. rewrite lookup_insert_ne by congruence. done.
  - intros r x v o h H1 H2 H3 H4. lks; cbn in *; try done.
    + apply (i_os _ _ I) in H1 as (v'&o'&H1&H5&H6). apply (i_cnt _ _ I) in H1. lia.
    + eapply (i_run _ _ I); done.
  - intros v o h r H1 H2 H3. lks; cbn in *; try done. eapply (i_str _ _ I); done.
  - intros v o q r H1 H2. lks; cbn in *; try done. eapply (i_ref _ _ I); done.
  - intros v o h q H1 H2 H3. lks; cbn in *; try done. eapply (i_path _ _ I); done.
  - intros q v. rewrite (i_tab _ _ I). split; intros (h&H1&H2).
    + exists h. by rewrite lookup_insert_ne by congruence.
    + lks; [done|]. by exists h.
  - intros r evs H. apply (i_pend _ _ I) in H as (x&v&o&h&H1&H2&H3&H4&H5). exists x, v, o, h. rewrite !lookup_insert_ne by congruence. done.
  - intros r v b H. apply (i_begun _ _ I) in H as (x&o&H1&H2&H3). exists x, o. rewrite lookup_insert_ne by congruence. done.
  - pose proof (i_q _ _ I) as Hq. destruct (m_q s); try done.
    + destruct Hq as (x&o&H1&H2&H3). exists x, o. rewrite lookup_insert_ne by congruence. done.
    + destruct Hq as (x&o&H1&H2&H3). exists x, o. rewrite lookup_insert_ne by congruence. done.
    + apply lookup_insert_is_Some. destruct (decide (w = w0)); [by left|by right].
  - intros v H. lks; [done|]. by apply (i_fail _ _ I v).
  - unfold pc_ok. cbn. rewrite lookup_insert. split_and!; try done. intros v h H Ht. lks; [done|]. by destruct (Htr v h H).
Qed.

(** The phase of one watch changes from [h] to [h'], the rest of the state changes little. *)
Lemma ph_inv s s' ph w o h h' : inv s ph → K s !! w = Some o → ph !! w = Some h →
  (* objects *)
  (∀ v, v ≠ w → K s' !! v = K s !! v) →
  (∃ o', K s' !! w = Some o' ∧ k_info o' = k_info o ∧ k_path o' = k_path o ∧ (∀ p r, h' = PTab p r → k_ref o' = Some r)) →
  m_cnt s' = m_cnt s →
  (* registry *)
  (∀ i, i ≠ k_info o → m_reg s' !! i = m_reg s !! i) →
  (registered h' ∧ registered h ∧ m_reg s' = m_reg s ∨ ¬ registered h' ∧ m_reg s' !! k_info o = None) →
  (* streams: those of other watches are the same *)
  (∀ r x, m_os s' !! r = Some x → (m_os s !! r = Some x ∧ os_info x ≠ k_info o) ∨ (os_info x = k_info o ∧ os_path x = k_path o)) →
  (∀ r x, m_os s !! r = Some x → ∃ x', m_os s' !! r = Some x' ∧ os_info x' = os_info x ∧ (os_info x ≠ k_info o → x' = x)) →
  (∀ r x, m_os s' !! r = Some x → os_info x = k_info o → (os_run x = true ↔ runs h' r) ∧ h' ≠ PNew ∧ (∀ r', stream_of h' r' → r' = r)) →
  (∀ r, stream_of h' r → ∃ x, m_os s' !! r = Some x ∧ os_info x = k_info o) →
  (∀ p, in_tab h' p → k_path o = p) →
  (* table *)
  (∀ p v, v ≠ w → m_tab s' !! p = Some v ↔ m_tab s !! p = Some v) → (∀ p, m_tab s' !! p = Some w ↔ in_tab h' p) →
  (* queue, log *)
  m_pend s' = m_pend s → (may_pend h → may_pend h') → m_begun s' = m_begun s → m_q s' = m_q s →
  (∀ x, x ∈ m_log s → x ∈ m_log s') → (h' = PFail → ∃ c, (c, Some ErrStart) ∈ m_log s') →
  pc_ok s' (<[w := h']> ph) → pc_path s' → inv s' (<[w := h']> ph).
Proof.
  intros I Ho Hh EK (o'&Ko'&Ei&Ep&Eref) Ec Er Hreg Hos Hos2 Hrun Hstr Hpath Htab Htabw Epend Hmay Ebeg Eq Elog Hfail Hpc Hpp.
  assert (∀ v x, K s' !! v = Some x → v = w ∧ x = o' ∨ v ≠ w ∧ K s !! v = Some x) as EK1.
  { intros v x H. destruct (decide (v = w)) as [->|Hne]; [left; split; congruence|right]. by rewrite EK in H. }
  assert (∀ v x, K s !! v = Some x → ∃ x', K s' !! v = Some x' ∧ k_info x' = k_info x ∧ k_path x' = k_path x) as EK2.
  { intros v x H. destruct (decide (v = w)) as [->|Hne]; [|exists x; by rewrite EK]. exists o'. assert (x = o) as -> by congruence. done. }
  assert (∀ v x, v ≠ w → K s !! v = Some x → k_info x ≠ k_info o) as Hinj.
  { intros v x Hne H E. apply Hne. by eapply (i_inj _ _ I). }
  split; try done.
  - intros v. destruct (decide (v = w)) as [->|Hne]; [rewrite lookup_insert, Ko'; split; eauto|].
    rewrite lookup_insert_ne, EK by done. apply I.
  - intros v x H. rewrite Ec. destruct (EK1 v x H) as [[-> ->]|[_ H']]; [|by eapply (i_cnt _ _ I)]. rewrite Ei. by eapply (i_cnt _ _ I).
  - intros v x v' x' H H' E. destruct (EK1 v x H) as [[-> ->]|[Hn1 H1]], (EK1 v' x' H') as [[-> ->]|[Hn2 H2]]; try done.
    + rewrite Ei in E. destruct (Hinj v' x'); done.
    + rewrite Ei in E. destruct (Hinj v x); done.
    + by eapply (i_inj _ _ I).
  - intros i v H. destruct (decide (i = k_info o)) as [->|Hne].
    + destruct Hreg as [(H1&H2&H3)|[_ H3]]; [|congruence]. rewrite H3 in H.
      rewrite (i_reg2 _ _ I w o h Ho Hh H2) in H. injection H as <-. exists o', h'. by rewrite lookup_insert.
    + rewrite Er in H by done. apply (i_reg _ _ I) in H as (x&g&H1&H2&H3&H4).
      assert (v ≠ w) by congruence. exists x, g. by rewrite lookup_insert_ne, EK.
  - intros v x g H Hg Hr. destruct (EK1 v x H) as [[-> ->]|[Hn1 H1]].
    + rewrite lookup_insert in Hg. injection Hg as <-. destruct Hreg as [(H1&H2&H3)|[H2 _]]; [|done].
      rewrite H3, Ei. by eapply (i_reg2 _ _ I).
    + rewrite lookup_insert_ne in Hg by done. rewrite Er by (by eapply Hinj). by eapply (i_reg2 _ _ I).
  - intros r x H. destruct (Hos r x H) as [[H1 H2]|[H1 H2]].
    + apply (i_os _ _ I) in H1 as (v&y&H3&H4&H5). destruct (EK2 v y H3) as (y'&H6&H7&H8). exists v, y'. by rewrite H7, H8.
    + exists w, o'. by rewrite Ei, Ep.
  - intros r x v y g H Hy E Hg. destruct (EK1 v y Hy) as [[-> ->]|[Hn1 H1]].
    + rewrite lookup_insert in Hg. injection Hg as <-. apply Hrun; [done|]. by rewrite <-E.
    + rewrite lookup_insert_ne in Hg by done. destruct (Hos r x H) as [[H2 H3]|[H2 H3]]; [by eapply (i_run _ _ I)|].
      destruct (Hinj v y); [done..|]. congruence.
  - intros v y g r Hy Hg Hs. destruct (EK1 v y Hy) as [[-> ->]|[Hn1 H1]].
    + rewrite lookup_insert in Hg. injection Hg as <-. rewrite Ei. by apply Hstr.
    + rewrite lookup_insert_ne in Hg by done. destruct (i_str _ _ I v y g r H1 Hg Hs) as (x&H2&H3).
      destruct (Hos2 r x H2) as (x'&H4&H5&_). exists x'. split; [done|]. congruence.
  - intros v y p r Hy Hg. destruct (EK1 v y Hy) as [[-> ->]|[Hn1 H1]].
    + rewrite lookup_insert in Hg. injection Hg as ->. by eapply Eref.
    + rewrite lookup_insert_ne in Hg by done. by eapply (i_ref _ _ I).
  - intros v y g p Hy Hg Hin. destruct (EK1 v y Hy) as [[-> ->]|[Hn1 H1]].
    + rewrite lookup_insert in Hg. injection Hg as ->. rewrite Ep. by apply Hpath.
    + rewrite lookup_insert_ne in Hg by done. by eapply (i_path _ _ I).
  - intros p v. destruct (decide (v = w)) as [->|Hne].
    + rewrite Htabw. rewrite lookup_insert. split; [intros; eauto|]. by intros (g&[= <-]&H).
    + rewrite Htab, (i_tab _ _ I) by done. by rewrite lookup_insert_ne.
  - intros r evs H. rewrite Epend in H. apply (i_pend _ _ I) in H as (x&v&y&g&H1&H2&H3&H4&H5).
    destruct (Hos2 r x H1) as (x'&H6&H7&_). destruct (EK2 v y H2) as (y'&H8&H9&_).
    destruct (decide (v = w)) as [->|Hne].
    + exists x', w, y', h'. rewrite lookup_insert. split_and!; try done; [congruence|]. apply Hmay. congruence.
    + exists x', v, y', g. rewrite lookup_insert_ne by done. split_and!; try done. congruence.
  - intros r v b H. rewrite Ebeg in H. apply (i_begun _ _ I) in H as (x&y&H1&H2&H3).
    destruct (Hos2 r x H1) as (x'&H6&H7&_). destruct (EK2 v y H2) as (y'&H8&H9&_). exists x', y'. split_and!; try done. congruence.
  - rewrite Eq. pose proof (i_q _ _ I) as Hq. destruct (m_q s) as [|r v evs|r v evs e|v e k evs out]; try done.
    + destruct Hq as (x&y&H1&H2&H3). destruct (Hos2 r x H1) as (x'&H6&H7&_). destruct (EK2 v y H2) as (y'&H8&H9&_).
      exists x', y'. split_and!; try done. congruence.
    + destruct Hq as (x&y&H1&H2&H3). destruct (Hos2 r x H1) as (x'&H6&H7&_). destruct (EK2 v y H2) as (y'&H8&H9&_).
      exists x', y'. split_and!; try done. congruence.
    + destruct Hq as [y Hy]. destruct (EK2 v y Hy) as (y'&H8&_). by eexists.
  - intros v H. destruct (decide (v = w)) as [->|Hne].
    + rewrite lookup_insert in H. injection H as ->. by apply Hfail.
    + rewrite lookup_insert_ne in H by done. destruct (i_fail _ _ I v H) as [c Hc]. exists c. by apply Elog.
Qed.
Lemma only_clear (ph : gmap N phase) w h' : (∀ w' h, ph !! w' = Some h → transient h → w' = w) → ¬ transient h' →
  ∀ v h, <[w := h']> ph !! v = Some h → ¬ transient h.
Proof. intros H Hn v h Hv Ht. lks; [done|]. by specialize (H v h Hv Ht). Qed.
Lemma only_same (ph : gmap N phase) w h' : (∀ w' h, ph !! w' = Some h → transient h → w' = w) →
  ∀ v h, <[w := h']> ph !! v = Some h → transient h → v = w.
Proof. intros H v h Hv Ht. lks; [done|]. by apply (H v h). Qed.
Lemma only_new (ph : gmap N phase) w h' : (∀ w' h, ph !! w' = Some h → ¬ transient h) →
  ∀ v h, <[w := h']> ph !! v = Some h → transient h → v = w.
Proof. intros H v h Hv Ht. lks; [done|]. by destruct (H v h). Qed.
Lemma ph_obj s ph w h : inv s ph → ph !! w = Some h → ∃ o, K s !! w = Some o.
Proof. intros I H. destruct (proj1 (i_dom _ _ I w)) as [o Ho]; [by eexists|by exists o]. Qed.
(** Streams of other watches, if the streams do not change. *)
Lemma os_same s ph w o : inv s ph → K s !! w = Some o → ∀ r x, m_os s !! r = Some x →
  (m_os s !! r = Some x ∧ os_info x ≠ k_info o) ∨ (os_info x = k_info o ∧ os_path x = k_path o).
Proof.
  intros I Ho r x H. destruct (decide (os_info x = k_info o)) as [E|E]; [right|by left]. split; [done|].
  apply (i_os _ _ I) in H as (v&y&H1&H2&H3). assert (v = w) as -> by (eapply (i_inj _ _ I); [done..|congruence]). congruence.
Qed.
Lemma no_stream s ph w o : inv s ph → K s !! w = Some o → ph !! w = Some PNew → ∀ r x, m_os s !! r = Some x → os_info x ≠ k_info o.
Proof. intros I Ho Hp r x H E. destruct (i_run _ _ I r x w o PNew) as (_&H2&_); done. Qed.
Lemma tab_other s ph w h : inv s ph → ph !! w = Some h → (∀ p, ¬ in_tab h p) → ∀ p, m_tab s !! p ≠ Some w.
Proof. intros I H Hn p Hp. apply (i_tab _ _ I) in Hp as (h'&H1&H2). assert (h' = h) as -> by congruence. by eapply Hn. Qed.

Lemma fail_inv s ph c w h : inv s ph → ph !! w = Some h → (h = PNew ∨ ∃ r, h = PCre r) →
  (∀ w' h, ph !! w' = Some h → transient h → w' = w) → inv (ret s c (Some ErrStart)) (<[w := PFail]> ph).
Proof.
  intros I Hh Hcase Hon. destruct (ph_obj _ _ _ _ I Hh) as [o Ho].
  assert (∀ p, ¬ in_tab h p) as Hnt by (intros q; destruct Hcase as [->|[r ->]]; simpl; tauto).
  apply (ph_inv s _ ph w o h); try done.
  - exists o. done.
  - left. split_and!; try done. destruct Hcase as [->|[r ->]]; done.
  - by eapply (os_same s ph).
  - cbn. intros r x H. by exists x.
  - cbn. intros r x H E. destruct (i_run _ _ I r x w o h) as (H1&H2&H3); try done. split_and!; try done.
    rewrite H1. destruct Hcase as [->|[r' ->]]; done.
  - cbn. intros q. split; [|done]. intros H. by destruct (tab_other _ _ _ _ I Hh Hnt q).
  - destruct Hcase as [->|[r ->]]; done.
  - intros x Hx. cbn. apply elem_of_app. by left.
  - intros _. exists c. cbn. apply elem_of_app. right. by left.
  - unfold pc_ok. cbn. apply only_clear; [done|simpl; tauto].
Qed.
Lemma create_inv s ph c p w o r : inv s ph → m_call s = Some (c, CCreate p w) → m_objs s !! w = Some o → m_os s !! r = None →
  inv (goto (set_os s (<[r := OSStream (o_info o) p (m_since s) false]> (m_os s))) c (CStart p w r)) (<[w := PCre r]> ph).
Proof.
  intros I Hc Hobj Hr. pose proof (i_pc _ _ I) as Hpc. unfold pc_ok in Hpc. rewrite Hc in Hpc. destruct Hpc as (Htab&Hph&Hon).
  pose proof (i_pcpath _ _ I) as Hpp. unfold pc_path in Hpp. rewrite Hc in Hpp.
  pose proof (K_lookup _ _ _ Hobj) as Ho. pose proof (no_stream _ _ _ _ I Ho Hph) as Hno.
  apply (ph_inv s _ ph w (erase o) PNew); try done.
  - exists (erase o). done.
  - by left.
  - cbn. intros r' x H. lks; cbn; [right|left]; [|by eauto]. split; [done|]. symmetry. by apply (Hpp (erase o)).
  - cbn. intros r' x H. exists x. rewrite lookup_insert_ne by congruence. done.
  - cbn. intros r' x H E. lks; cbn; [split_and!; done|]. by destruct (Hno r' x).
  - cbn. intros r' <-. rewrite lookup_insert. by eexists.
  - cbn. intros q. split; [|done]. intros H. by destruct (tab_other _ _ _ _ I Hph (λ _ x, x) q).
  - unfold pc_ok. cbn. rewrite lookup_insert. split_and!; try done. by apply only_same.
Qed.
Lemma start_inv s ph c p w r x : inv s ph → m_call s = Some (c, CStart p w r) → m_os s !! r = Some x →
  inv (goto (set_os s (<[r := running x]> (m_os s))) c (CIns p w r)) (<[w := PIns r]> ph).
Proof.
  intros I Hc Hr. pose proof (i_pc _ _ I) as Hpc. unfold pc_ok in Hpc. rewrite Hc in Hpc. destruct Hpc as (Htab&Hph&Hon).
  pose proof (i_pcpath _ _ I) as Hpp. unfold pc_path in Hpp. rewrite Hc in Hpp.
  destruct (ph_obj _ _ _ _ I Hph) as [o Ho].
  destruct (i_str _ _ I w o (PCre r) r Ho Hph eq_refl) as (x'&Hx'&Ei). assert (x' = x) as -> by congruence.
  apply (ph_inv s _ ph w o (PCre r)); try done.
  - exists o. done.
  - by left.
  - cbn. intros r' y H. lks; [right|by eapply (os_same s ph)]; cbn.
    destruct (os_same s ph w o I Ho r' x Hr) as [[_ H]|H]; [by destruct H|done].
  - cbn. intros r' y H. destruct (decide (r' = r)) as [->|Hne].
    + rewrite lookup_insert. exists (running x). assert (y = x) as -> by congruence. done.
    + rewrite lookup_insert_ne by done. by exists y.
  - cbn. intros r' y H E. lks; cbn; [by split_and!|].
    destruct (i_run _ _ I r' y w o (PCre r)) as (H1&H2&H3); try done. by destruct (H3 r).
  - cbn. intros r' <-. rewrite lookup_insert. by eexists.
  - cbn. intros q. split; [|done]. intros H. by destruct (tab_other _ _ _ _ I Hph (λ _ x, x) q).
  - unfold pc_ok. cbn. rewrite lookup_insert. split_and!; try done. by apply only_same.
Qed.
Lemma ins_inv s ph c p w r o : inv s ph → m_call s = Some (c, CIns p w r) → m_objs s !! w = Some o →
  inv (ret (set_tab (set_objs s (<[w := set_ref o (Some r)]> (m_objs s))) (<[p := w]> (m_tab s))) c None) (<[w := PTab p r]> ph).
Proof.
  intros I Hc Hobj. pose proof (i_pc _ _ I) as Hpc. unfold pc_ok in Hpc. rewrite Hc in Hpc. destruct Hpc as (Htab&Hph&Hon).
  pose proof (i_pcpath _ _ I) as Hpp. unfold pc_path in Hpp. rewrite Hc in Hpp.
  pose proof (K_lookup _ _ _ Hobj) as Ho. set (s' := ret _ _ _).
  assert (K s' = <[w := Ob (o_info o) (fw_path (o_w o)) (Some r)]> (K s)) as EK by apply K_insert.
  apply (ph_inv s _ ph w (erase o) (PIns r)); try done; try rewrite EK.
  - intros v Hne. by rewrite lookup_insert_ne.
  - rewrite lookup_insert. eexists. split_and!; try done. intros ? ? [= _ <-]. done.
  - by left.
  - by eapply (os_same s ph).
  - cbn. intros r' x H. by exists x.
  - cbn. intros r' x H E. destruct (i_run _ _ I r' x w (erase o) (PIns r)) as (H1&H2&H3); done.
  - cbn. intros r' <-. by apply (i_str _ _ I w (erase o) (PIns r) r).
  - cbn. intros q <-. by apply (Hpp (erase o)).
  - cbn. intros q v Hne. destruct (decide (q = p)) as [->|Hq]; [rewrite lookup_insert, Htab; split; congruence|].
    by rewrite lookup_insert_ne.
  - cbn. intros q. destruct (decide (q = p)) as [->|Hq]; [by rewrite lookup_insert|]. rewrite lookup_insert_ne by done.
    split; [|congruence]. intros H. by destruct (tab_other _ _ _ _ I Hph (λ _ x, x) q).
  - intros x Hx. cbn. apply elem_of_app. by left.
  - unfold pc_ok. cbn. apply only_clear; [done|simpl; tauto].
Qed.
Lemma stop_inv s ph c p w cont o r x : inv s ph → m_call s = Some (c, CStop p w cont) → m_objs s !! w = Some o → o_ref o = Some r → m_os s !! r = Some x →
  inv (goto (set_objs (set_os s (<[r := stopped x]> (m_os s))) (<[w := set_ref o None]> (m_objs s))) c (CUnreg p w cont)) (<[w := PUnreg p]> ph).
Proof.
  intros I Hc Hobj Hr Hx. pose proof (i_pc _ _ I) as Hpc. unfold pc_ok in Hpc. rewrite Hc in Hpc. destruct Hpc as (Htab&[r' Hph]&Hon&Hcont).
  pose proof (K_lookup _ _ _ Hobj) as Ho.
  assert (r' = r) as ->. { pose proof (i_ref _ _ I w (erase o) p r' Ho Hph) as H. simpl in H. congruence. }
  destruct (i_str _ _ I w (erase o) (PTab p r) r Ho Hph eq_refl) as (x'&Hx'&Ei). assert (x' = x) as -> by congruence.
  set (s' := goto _ _ _).
  assert (K s' = <[w := Ob (o_info o) (fw_path (o_w o)) None]> (K s)) as EK by apply K_insert.
  apply (ph_inv s _ ph w (erase o) (PTab p r)); try done; try rewrite EK.
  - intros v Hne. by rewrite lookup_insert_ne.
  - rewrite lookup_insert. eexists. split_and!; done.
  - by left.
  - cbn. intros r' y H. lks; [right|by eapply (os_same s ph w (erase o))]; cbn.
    destruct (os_same s ph w (erase o) I Ho r' x Hx) as [[_ H]|H]; [by destruct H|done].
  - cbn. intros r' y H. destruct (decide (r' = r)) as [->|Hne].
    + rewrite lookup_insert. exists (stopped x). assert (y = x) as -> by congruence. split_and!; try done.
    + rewrite lookup_insert_ne by done. by exists y.
  - cbn. intros r' y H E. lks; cbn; [by split_and!|].
    destruct (i_run _ _ I r' y w (erase o) (PTab p r)) as (H1&H2&H3); try done. by destruct (H3 r).
  - cbn. intros q <-. by apply (i_path _ _ I w (erase o) (PTab p r)).
  - cbn. intros q. rewrite (i_tab _ _ I). split; [|intros <-; eexists; split; done]. intros (h&H1&H2).
    assert (h = PTab p r) as -> by congruence. done.
  - unfold pc_ok. cbn. rewrite lookup_insert. split_and!; try done. by apply only_new.
Qed.
Lemma unreg_inv s ph c p w cont o : inv s ph → m_call s = Some (c, CUnreg p w cont) → m_objs s !! w = Some o →
  inv (goto (set_reg s (delete (o_info o) (m_reg s))) c (CDel p w cont)) (<[w := PDel p]> ph).
Proof.
  intros I Hc Hobj. pose proof (i_pc _ _ I) as Hpc. unfold pc_ok in Hpc. rewrite Hc in Hpc. destruct Hpc as (Htab&Hph&Hon&Hcont).
  pose proof (K_lookup _ _ _ Hobj) as Ho.
  apply (ph_inv s _ ph w (erase o) (PUnreg p)); try done.
  - exists (erase o). done.
  - cbn. intros i Hi. by rewrite lookup_delete_ne.
  - right. cbn. rewrite lookup_delete. split; [|done]. tauto.
  - by eapply (os_same s ph).
  - cbn. intros r' x H. by exists x.
  - cbn. intros r' x H E. destruct (i_run _ _ I r' x w (erase o) (PUnreg p)) as (H1&H2&H3); done.
  - cbn. intros q <-. by apply (i_path _ _ I w (erase o) (PUnreg p)).
  - cbn. intros q. rewrite (i_tab _ _ I). split; [|intros <-; eexists; split; done]. intros (h&H1&H2).
    assert (h = PUnreg p) as -> by congruence. done.
  - unfold pc_ok. cbn. rewrite lookup_insert. split_and!; try done. by apply only_same.
Qed.
Lemma del_inv s s' ph p w : inv s ph → m_tab s !! p = Some w → ph !! w = Some (PDel p) →
  K s' = K s → m_reg s' = m_reg s → m_cnt s' = m_cnt s → m_os s' = m_os s → m_pend s' = m_pend s → m_begun s' = m_begun s → m_q s' = m_q s →
  (∀ x, x ∈ m_log s → x ∈ m_log s') →
  m_tab s' = delete p (m_tab s) → pc_ok s' (<[w := PGone]> ph) → pc_path s' → inv s' (<[w := PGone]> ph).
Proof.
  intros I Htab Hph EK Er Ec Eo Ep Eb Eq El Et Hpc Hpp. destruct (ph_obj _ _ _ _ I Hph) as [o Ho].
  apply (ph_inv s _ ph w o (PDel p)); try done; rewrite ?EK, ?Er, ?Eo, ?Et; try done.
  - exists o. done.
  - right. split; [by intros []|]. destruct (m_reg s !! k_info o) as [v|] eqn:E; [|done].
    apply (i_reg _ _ I) in E as (o'&h&H1&H2&H3&H4). assert (v = w) as -> by (by eapply (i_inj _ _ I)).
    assert (h = PDel p) as -> by congruence. done.
  - by eapply (os_same s ph).
  - intros r x H. by exists x.
  - intros r x H E. destruct (i_run _ _ I r x w o (PDel p)) as (H1&H2&H3); done.
  - intros q v Hne. destruct (decide (q = p)) as [->|Hq]; [rewrite lookup_delete, Htab; split; congruence|]. by rewrite lookup_delete_ne.
  - intros q. split; [|done]. intros H. lks. apply (i_tab _ _ I) in H as (h&H1&H2). assert (h = PDel p) as -> by congruence. done.
Qed.
Lemma keeps_insert ph w h h' : ph !! w = Some h → ¬ dead h → keeps_dead ph (<[w := h']> ph).
Proof. intros H Hn v g Hg Hd. destruct (decide (v = w)) as [->|Hne]; [|by rewrite lookup_insert_ne]. by assert (g = h) as -> by congruence. Qed.

Ltac carry I := try (exact (i_q _ _ I)); try (exact (i_pc _ _ I)); try (exact (i_pcpath _ _ I)).
Lemma step_inv s s' ph : inv s ph → mstep s s' → ∃ ph', inv s' ph' ∧ keeps_dead ph ph'.
Proof.
  intros I Hs. assert (keeps_dead ph ph) as Hk by (by intros ???).   destruct Hs as
    [s c Hc|s c p e k w Hc Hw|s c p w Hc|s c p w o r Hc Ho Hr|s c p w r Hc|s c p w r x Hc Hx|s c p w r o Hc Ho|s c p w cont o Hc Ho Hr
    |s c p w cont o r x Hc Ho Hr Hx|s c p w cont o Hc Ho|s c p w Hc|s c p w q e Hc|s c w k o Hc Ho|s r x evs Hx Hrun|s r l Hq Hp
    |s r x evs l Hq Hp Hne Hx Hreg|s r x evs l w Hq Hp Hne Hx Hreg|s r w evs o id Hq Ho Hid|s r w evs e o Hq Ho
    |s w e k ev evs o Hq Ho|s w e k evs x out Hq|s w e k Hq];
    pose proof (i_pc _ _ I) as Hpc; unfold pc_ok in Hpc; try rewrite Hc in Hpc.
  - exists ph. split; [by apply begin_inv|done].
  - eexists. split; [by eapply new_inv|]. intros v g Hg Hd. rewrite lookup_insert_ne; [done|]. intros ->.
    destruct (proj1 (i_dom _ _ I v)) as [y Hy]; [by eexists|]. apply K_None in Hw. congruence.
  - destruct Hpc as (Ht&Hph&Hon). eexists. split; [eapply (fail_inv s ph c w); [done..|by left|done]|]. eapply keeps_insert; [done|]. intros [|]; done.
  - destruct Hpc as (Ht&Hph&Hon). eexists. split; [by eapply create_inv|]. eapply keeps_insert; [done|]. intros [|]; done.
  - destruct Hpc as (Ht&Hph&Hon). eexists. split; [eapply (fail_inv s ph c w); [done..|right; by eexists|done]|]. eapply keeps_insert; [done|]. intros [|]; done.
  - destruct Hpc as (Ht&Hph&Hon). eexists. split; [by eapply start_inv|]. eapply keeps_insert; [done|]. intros [|]; done.
  - destruct Hpc as (Ht&Hph&Hon). eexists. split; [by eapply ins_inv|]. eapply keeps_insert; [done|]. intros [|]; done.
  - destruct Hpc as (Ht&[r Hph]&Hon&_). apply K_lookup in Ho. pose proof (i_ref _ _ I w _ p r Ho Hph) as H. simpl in H. congruence.
  - destruct Hpc as (Ht&[r' Hph]&Hon&_). eexists. split; [by eapply stop_inv|]. eapply keeps_insert; [done|]. intros [|]; done.
  - destruct Hpc as (Ht&Hph&Hon&_). eexists. split; [by eapply unreg_inv|]. eapply keeps_insert; [done|]. intros [|]; done.
  - destruct Hpc as (Ht&Hph&Hon&_). exists (<[w := PGone]> ph). split; [|eapply keeps_insert; [done|]; intros [|]; done].
    apply (del_inv s _ ph p w); try done.
    + intros x Hx. cbn. apply elem_of_app. by left.
    + unfold pc_ok. cbn. apply only_clear; [done|simpl; tauto].
  - destruct Hpc as (Ht&Hph&Hon&Hq). exists (<[w := PGone]> ph). split; [|eapply keeps_insert; [done|]; intros [|]; done].
    apply (del_inv s _ ph p w); try done. unfold pc_ok. cbn. split.
    + rewrite lookup_delete_ne by congruence. done.
    + apply only_clear; [done|simpl; tauto].
  - destruct Hpc as [_ Hon]. exists ph. split; [|done]. apply (inv_frame s); try done.
    + cbn. by eapply K_same.
    + apply (i_q _ _ I).
    + intros y Hy. cbn. apply elem_of_app. by left.
  - exists ph. split; [|done]. destruct I. split; try done. cbn. intros r' evs' [H|H]%elem_of_app; [by eapply i_pend0|].
    apply elem_of_list_singleton in H as [= -> ->]. destruct (i_os0 r x Hx) as (w&o&H1&H2&H3).
    destruct (proj2 (i_dom0 w)) as [h Hh]; [by eexists|]. exists x, w, o, h. split_and!; try done.
    destruct (i_run0 r x w o h) as (H4&_); try done. destruct h; simpl in *; try done; tauto.
  - exists ph. split; [|done]. apply (inv_frame s); try done; carry I.
    cbn. rewrite Hp. intros y Hy. by right.
  - exists ph. split; [|done]. apply (inv_frame s); try done; carry I.
    cbn. rewrite Hp. intros y Hy. by right.
  - exists ph. split; [|done]. apply (inv_frame s); try done; carry I.
    + cbn. rewrite Hp. intros y Hy. by right.
    + cbn. apply (i_reg _ _ I) in Hreg as (o&h&H1&H2&_). by exists x, o.
  - exists ph. split; [|done]. apply (inv_frame s); try done; carry I.
    cbn. pose proof (i_q _ _ I) as H. by rewrite Hq in H.
  - exists ph. split; [|done]. pose proof (i_q _ _ I) as H. rewrite Hq in H. destruct I. split; try done; cbn.
    + intros r' w' b [Hb|Hb]%elem_of_app; [by eapply i_begun0|]. apply elem_of_list_singleton in Hb as [= -> -> ->]. done.
    + apply K_lookup in Ho. by eexists.
  - exists ph. split; [|done]. assert (erase <$> <[w := WObj (dispatch1 e k (o_w o) ev).1 (o_ref o) (o_info o)]> (m_objs s) = K s) as EK.
    { apply (K_same s w o); [done|]. unfold erase. cbn. by rewrite dispatch1_path. }
    apply (inv_frame s); try done; carry I.
    + cbn. apply K_lookup in Ho. by eexists.
    + apply (pc_path_K s); [done..|apply (i_pcpath _ _ I)].
  - exists ph. split; [|done]. apply (inv_frame s); try done; carry I.
    cbn. pose proof (i_q _ _ I) as H. by rewrite Hq in H.
  - exists ph. split; [|done]. apply (inv_frame s); try done; carry I.
Qed.
Lemma init_inv since : inv (mst0 since) ∅.
Proof.
  split; try done.
  all: try (intros; cbn in *; rewrite ?lookup_empty, ?fmap_empty in *; try done; by apply elem_of_nil in H).
  - intros w. unfold K, mst0. cbn. rewrite fmap_empty, !lookup_empty. split; by intros [? [=]].
  - intros p w. cbn. rewrite lookup_empty. split; [done|]. intros (h&H&_). by rewrite lookup_empty in H.
Qed.
Lemma reach_inv s : mreach s → ∃ ph, inv s ph.
Proof.
  induction 1 as [since|s s' _ [ph I] Hs]; [exists ∅; apply init_inv|]. destruct (step_inv _ _ _ I Hs) as (ph'&I'&_). by exists ph'.
Qed.

(** ** A watch that is gone stays quiet *)
Lemma begin_q s c : m_q (m_begin s c) = m_q s.
Proof.
  unfold m_begin, m_swap. destruct c; repeat (case_match; try done).
Qed.
Lemma begin_sent s c : m_sent (m_begin s c) = m_sent s.
Proof. unfold m_begin, m_swap. destruct c; repeat (case_match; try done). Qed.
Lemma begin_begun s c : m_begun (m_begin s c) = m_begun s.
Proof. unfold m_begin, m_swap. destruct c; repeat (case_match; try done). Qed.
Lemma begin_pend s c : m_pend (m_begin s c) = m_pend s.
Proof. unfold m_begin, m_swap. destruct c; repeat (case_match; try done). Qed.
Lemma dead_step s s' ph w h : inv s ph → mstep s s' → ph !! w = Some h → dead h → ¬ q_on (m_q s) w →
  ¬ q_on (m_q s') w ∧ sent_by s' w = sent_by s w.
Proof.
  intros I Hs Hh Hd Hq. destruct Hs as
    [s c Hc|s c p e k v Hc Hw|s c p v Hc|s c p v o r Hc Ho Hr|s c p v r Hc|s c p v r x Hc Hx|s c p v r o Hc Ho|s c p v cont o Hc Ho Hr
    |s c p v cont o r x Hc Ho Hr Hx|s c p v cont o Hc Ho|s c p v Hc|s c p v q e Hc|s c v k o Hc Ho|s r x evs Hx Hrun|s r l Hq' Hp
    |s r x evs l Hq' Hp Hne Hx Hreg|s r x evs l v Hq' Hp Hne Hx Hreg|s r v evs o id Hq' Ho Hid|s r v evs e o Hq' Ho
    |s v e k ev evs o Hq' Ho|s v e k evs x out Hq'|s v e k Hq']; try (split; done).
  - unfold sent_by. by rewrite begin_q, begin_sent.
  - split; [|done]. cbn. intros ->. apply (i_reg _ _ I) in Hreg as (o&g&H1&H2&H3&H4). assert (g = h) as -> by congruence.
    destruct (i_pend _ _ I r evs) as (x'&v'&o'&g'&G1&G2&G3&G4&G5). { rewrite Hp. by left. }
    assert (x' = x) as -> by congruence. assert (v' = w) as -> by (eapply (i_inj _ _ I); [done..|congruence]).
    assert (g' = h) as -> by congruence. by destruct Hd as [->| ->].
  - split; [|done]. cbn. by rewrite Hq' in Hq.
  - split; [|done]. cbn. by rewrite Hq' in Hq.
  - split; [|done]. cbn. by rewrite Hq' in Hq.
  - rewrite Hq' in Hq. split; [done|]. unfold sent_by. cbn. rewrite filter_app, fmap_app. rewrite filter_cons_False by done. by rewrite filter_nil, app_nil_r.
  - split; [|done]. cbn. tauto.
Qed.
Lemma dead_steps s s' ph w h : inv s ph → msteps s s' → ph !! w = Some h → dead h → ¬ q_on (m_q s) w → sent_by s' w = sent_by s w.
Proof.
  intros I Hs. revert ph I. induction Hs as [s|s s1 s2 H1 _ IH]; intros ph I Hh Hd Hq; [done|].
  destruct (dead_step _ _ _ _ _ I H1 Hh Hd Hq) as [Hq1 <-]. destruct (step_inv _ _ _ I H1) as (ph1&I1&Hk).
  apply (IH ph1); try done. by apply Hk.
Qed.
Lemma gone_dead s ph w : inv s ph → gone s w → ∃ h, ph !! w = Some h ∧ dead h.
Proof.
  intros I (Hc&[o Ho]&Ht). apply K_lookup in Ho. destruct (proj2 (i_dom _ _ I w)) as [h Hh]; [by eexists|]. exists h. split; [done|].
  pose proof (i_pc _ _ I) as Hpc. unfold pc_ok in Hpc. rewrite Hc in Hpc. specialize (Hpc w h Hh).
  destruct h; simpl in Hpc; try tauto; [|by left|by right]. destruct (Ht p). apply (i_tab _ _ I). by eexists.
Qed.

(** ** Histories *)
Definition sim (x y : fwatch) : Prop := fw_prev x = fw_prev y ∧ fw_path x = fw_path y ∧ fw_flushed x = fw_flushed y.
Lemma dispatch1_sim e k x y ev : sim x y → sim (dispatch1 e k x ev).1 (dispatch1 e k y ev).1 ∧ (dispatch1 e k x ev).2 = (dispatch1 e k y ev).2.
Proof.
  destruct x as [a b c d f], y as [a' b' c' d' f']. intros (H1&H2&H3). cbn in H1, H2, H3. subst.
  unfold dispatch1, strip. cbn. destruct (negb _); [done|]. destruct (negb _); [done|]. destruct (_ && _); [done|].
  destruct (fs_base _ _ _ _) as [base|]; [|done]. destruct (strip1 _ _) as [[v|] z]; destruct (_ =? 0); done.
Qed.
Lemma sim_events x y e k : sim x y → sim (with_events x e k) y.
Proof. done. Qed.
(** The items of the batches a watch was called with. *)
Definition items (l : list (N * bool * list fsevent)) : list item := l ≫= λ b, Item b.1.1 b.1.2 <$> b.2.
Lemma items_history e k l : history e k (as_history l) = items l.
Proof.
  revert e k. induction l as [|[[e' k'] evs] l IH]; intros e k; [done|]. unfold as_history, items in *. cbn. by rewrite IH.
Qed.
Definition q_todo (q : qpc) (w : N) : list item :=
  match q with QRun v e k evs _ => if decide (v = w) then Item e k <$> evs else [] | _ => [] end.
Definition q_out (q : qpc) (w : N) : list (fsevent * N) :=
  match q with QRun v _ _ _ out => if decide (v = w) then out else [] | _ => [] end.
Definition hinv (s : mst) : Prop :=
  (∀ i w, m_reg s !! i = Some w → is_Some (m_objs s !! w)) ∧
  (∀ w, m_objs s !! w = None → sent_by s w = [] ∧ begun_by s w = [] ∧ ¬ q_on (m_q s) w) ∧
  (∀ w o, m_objs s !! w = Some o → ∃ done, items (begun_by s w) = done ++ q_todo (m_q s) w ∧
     sim (o_w o) (fs_run (fresh_watch (fw_path (o_w o)) 0 false) done).1 ∧
     (fs_run (fresh_watch (fw_path (o_w o)) 0 false) done).2 = sent_by s w ++ q_out (m_q s) w).
Lemma hinv_frame s s' : hinv s → (∀ i w, m_reg s' !! i = Some w → is_Some (m_objs s' !! w)) →
  (∀ w, m_objs s' !! w = None → m_objs s !! w = None) →
  (∀ w o', m_objs s' !! w = Some o' → (∃ o, m_objs s !! w = Some o ∧ sim (o_w o') (o_w o)) ∨
     (m_objs s !! w = None ∧ fw_prev (o_w o') = ∅ ∧ fw_flushed (o_w o') = false)) →
  m_sent s' = m_sent s → m_begun s' = m_begun s →
  (∀ w, q_todo (m_q s') w = q_todo (m_q s) w ∧ q_out (m_q s') w = q_out (m_q s) w) → (∀ w, q_on (m_q s') w → is_Some (m_objs s' !! w)) → hinv s'.
Proof.
  intros (H1&H2&H3) Hreg Hn Ho Es Eb Hq Hon. split_and!; [done| |].
  - intros w Hw. unfold sent_by, begun_by. rewrite Es, Eb. destruct (H2 w (Hn w Hw)) as (G1&G2&G3). split_and!; try done.
    intros Hc. apply Hon in Hc as [? Hc]. congruence.
  - intros w o' Hw. unfold sent_by, begun_by. rewrite Es, Eb. destruct (Hq w) as [-> ->].
    destruct (Ho w o' Hw) as [(o&Hwo&Hs)|(Hwo&Hp&Hf)].
    + destruct (H3 w o Hwo) as (l&G1&G2&G3). exists l. destruct Hs as (S1&S2&S3). rewrite S2. split_and!; try done.
      destruct G2 as (T1&T2&T3). split_and!; congruence.
    + destruct (H2 w Hwo) as (G1&G2&G3). exists []. fold (sent_by s w) (begun_by s w). rewrite G1, G2. cbn.
      assert (q_todo (m_q s) w = [] ∧ q_out (m_q s) w = []) as [-> ->].
      { destruct (m_q s) as [| | |v e k evs out]; try done. cbn in *. by rewrite !decide_False. }
      split_and!; try done. 
Qed.
Lemma begin_reg s c : m_reg (m_begin s c) = m_reg s.
Proof. unfold m_begin, m_swap. destruct c; repeat (case_match; try done). Qed.
Lemma begin_objs s c : m_objs (m_begin s c) = m_objs s ∨ ∃ w o e, m_objs s !! w = Some o ∧ m_objs (m_begin s c) = <[w := set_ev o e]> (m_objs s).
Proof. unfold m_begin, m_swap. destruct c; repeat (case_match; try (by left)); right; cbn; eauto. Qed.
(** Objects are changed only in what does not matter. *)
Lemma objs_upd (m : gmap N wobj) w o o' : m !! w = Some o → sim (o_w o') (o_w o) →
  (∀ v, is_Some (m !! v) → is_Some (<[w := o']> m !! v)) ∧ (∀ v, <[w := o']> m !! v = None → m !! v = None) ∧
  (∀ v y, <[w := o']> m !! v = Some y → (∃ x, m !! v = Some x ∧ sim (o_w y) (o_w x)) ∨ (m !! v = None ∧ fw_prev (o_w y) = ∅ ∧ fw_flushed (o_w y) = false)).
Proof.
  intros H Hs. split_and!.
  - intros v Hv. apply lookup_insert_is_Some. destruct (decide (w = v)); [by left|by right].
  - intros v [Hv _]%lookup_insert_None. done.
  - intros v y Hy. left. lks; [by exists o|]. by exists y.
Qed.
Lemma objs_same (m : gmap N wobj) : ∀ v y, m !! v = Some y → (∃ x, m !! v = Some x ∧ sim (o_w y) (o_w x)) ∨ (m !! v = None ∧ fw_prev (o_w y) = ∅ ∧ fw_flushed (o_w y) = false).
Proof. intros v y H. left. by exists y. Qed.
Lemma q_on_dom s : hinv s → ∀ w, q_on (m_q s) w → is_Some (m_objs s !! w).
Proof. intros (_&H&_) w Hq. destruct (m_objs s !! w) eqn:E; [by eexists|]. by destruct (H w E) as (_&_&[]). Qed.
Lemma begun_snoc s w v r b l : m_begun s = l ++ [(r, v, b)] → begun_by s w = (snd <$> filter (λ x, x.1.2 = w) l) ++ (if decide (v = w) then [b] else []).
Proof. intros E. unfold begun_by. rewrite E, filter_app, fmap_app. f_equal. rewrite filter_cons. simpl. by destruct (decide (v = w)). Qed.
Lemma sent_snoc s w v x l : m_sent s = l ++ [(v, x)] → sent_by s w = (snd <$> filter (λ x, x.1 = w) l) ++ (if decide (v = w) then [x] else []).
Proof. intros E. unfold sent_by. rewrite E, filter_app, fmap_app. f_equal. rewrite filter_cons. simpl. by destruct (decide (v = w)). Qed.
Lemma items_app l l' : items (l ++ l') = items l ++ items l'.
Proof. unfold items. by rewrite bind_app. Qed.
Lemma fs_run_snoc x l i : fs_run x (l ++ [i]) =
  ((dispatch1 (it_events i) (it_isrec i) (fs_run x l).1 (it_ev i)).1, (fs_run x l).2 ++ (dispatch1 (it_events i) (it_isrec i) (fs_run x l).1 (it_ev i)).2).
Proof.
  unfold fs_run. rewrite foldl_app. simpl. destruct (foldl _ _ l) as [y out]. simpl. by destruct (dispatch1 _ _ y _).
Qed.
Lemma step_hinv s s' : hinv s → mstep s s' → hinv s'.
Proof.
  intros I Hs. destruct Hs as
    [s c Hc|s c p e k v Hc Hw|s c p v Hc|s c p v o r Hc Ho Hr|s c p v r Hc|s c p v r x Hc Hx|s c p v r o Hc Ho|s c p v cont o Hc Ho Hr
    |s c p v cont o r x Hc Ho Hr Hx|s c p v cont o Hc Ho|s c p v Hc|s c p v q e Hc|s c v k o Hc Ho|s r x evs Hx Hrun|s r l Hq' Hp
    |s r x evs l Hq' Hp Hne Hx Hreg|s r x evs l v Hq' Hp Hne Hx Hreg|s r v evs o id Hq' Ho Hid|s r v evs e o Hq' Ho
    |s v e k ev evs o Hq' Ho|s v e k evs x out Hq'|s v e k Hq'];
    pose proof (q_on_dom _ I) as Hon; pose proof I as (I1&I2&I3);
    try (apply (hinv_frame s); try done; cbn; try apply objs_same; done).
  - apply (hinv_frame s); rewrite ?begin_reg, ?begin_sent, ?begin_begun, ?begin_q; try done.
    + intros i w Hi. apply I1 in Hi. destruct (begin_objs s c) as [->|(v&o&e&Ho&->)]; [done|]. by eapply objs_upd.
    + intros w. destruct (begin_objs s c) as [->|(v&o&e&Ho&->)]; [done|]. by eapply objs_upd.
    + intros w. destruct (begin_objs s c) as [->|(v&o&e&Ho&->)]; [apply objs_same|]. by eapply objs_upd.
    + intros w Hi. apply Hon in Hi. destruct (begin_objs s c) as [->|(v&o&e&Ho&->)]; [done|]. by eapply objs_upd.
  - apply (hinv_frame s); cbn; try done.
    + intros i w Hi. apply lookup_insert_is_Some. lks; [by left|]. destruct (decide (v = w)); [by left|right]. split; [done|]. by eapply I1.
    + intros w [H _]%lookup_insert_None. done.
    + intros w o' H. lks; [by right|by left; eexists].
    + intros w Hi. apply lookup_insert_is_Some. destruct (decide (v = w)); [by left|right]. split; [done|]. by apply Hon.
  - destruct (objs_upd (m_objs s) v o (set_ref o (Some r)) Ho) as (A&B&D); [done|].
    apply (hinv_frame s); cbn; try done. intros i w Hi. apply A. by eapply I1. intros w Hi. apply A, Hon, Hi.
  - destruct (objs_upd (m_objs s) v o (set_ref o None) Ho) as (A&B&D); [done|].
    apply (hinv_frame s); cbn; try done. intros i w Hi. apply A. by eapply I1. intros w Hi. apply A, Hon, Hi.
  - apply (hinv_frame s); cbn; try done; [|apply objs_same]. intros i w Hi. lks. by eapply I1.
  - destruct (objs_upd (m_objs s) v o (set_rec o k) Ho) as (A&B&D); [done|].
    apply (hinv_frame s); cbn; try done. intros i w Hi. apply A. by eapply I1. intros w Hi. apply A, Hon, Hi.
  - apply (hinv_frame s); cbn; try done; [apply objs_same| |].
    + rewrite Hq'. done.
    + intros w ->. by eapply I1.
  - apply (hinv_frame s); cbn; try done; [apply objs_same| |].
    + rewrite Hq'. done.
    + intros w ->. by eexists.
  - set (s' := set_begun _ _).
    assert (∀ w, begun_by s' w = begun_by s w ++ (if decide (v = w) then [(e, fw_isrec (o_w o), evs)] else [])) as EB.
    { intros w. by eapply begun_snoc. }
    split_and!; [done| |].
    + intros w Hw. destruct (I2 w Hw) as (G1&G2&G3). rewrite Hq' in G3. cbn in G3. split_and!; [done| |done].
      by rewrite EB, G2, decide_False.
    + intros w o' Hw. rewrite EB. destruct (I3 w o' Hw) as (l&G1&G2&G3). rewrite Hq' in G1, G3. cbn in G1, G3. rewrite !app_nil_r in *.
      exists l. rewrite items_app, G1. split_and!; [|done|].
      * f_equal. cbn. destruct (decide (v = w)); [|done]. unfold items. cbn. by rewrite app_nil_r.
      * rewrite G3. change (sent_by s' w) with (sent_by s w). cbn. destruct (decide _); by rewrite app_nil_r.
  - split_and!.
    + intros i w Hi. cbn in *. apply lookup_insert_is_Some. destruct (decide (v = w)); [by left|right]. split; [done|]. by eapply I1.
    + intros w Hw. cbn [m_objs set_q set_objs] in Hw. apply lookup_insert_None in Hw as [Hw Hne]. destruct (I2 w Hw) as (G1&G2&G3). split_and!; done.
    + intros w o' Hw. cbn in Hw. apply lookup_insert_Some in Hw as [[<- <-]|[Hne Hw]].
      * destruct (I3 v o Ho) as (l&G1&G2&G3). rewrite Hq' in G1, G3. cbn in G1, G3. rewrite decide_True in G1 by done. rewrite decide_True in G3 by done.
        exists (l ++ [Item e k ev]). cbn [m_q set_q q_todo q_out o_w]. rewrite !decide_True by done. rewrite dispatch1_path, fs_run_snoc. cbn [fst snd it_events it_isrec it_ev].
        destruct (dispatch1_sim e k _ _ ev G2) as [S1 S2]. split_and!.
        -- change (begun_by (set_q _ _) v) with (begun_by s v). rewrite G1. by rewrite <-app_assoc.
        -- apply S1.
        -- rewrite <-S2, G3. rewrite app_nil_r. done.
      * destruct (I3 w o' Hw) as (l&G1&G2&G3). rewrite Hq' in G1, G3. cbn in G1, G3. rewrite decide_False in G1 by done. rewrite decide_False in G3 by done.
        exists l. cbn [m_q set_q q_todo q_out]. rewrite !decide_False by done. done.
  - set (s' := set_sent _ _).
    assert (∀ w, sent_by s' w = sent_by s w ++ (if decide (v = w) then [x] else [])) as EB.
    { intros w. by eapply sent_snoc. }
    split_and!; [done| |].
    + intros w Hw. destruct (I2 w Hw) as (G1&G2&G3). rewrite Hq' in G3. cbn in G3. split_and!; [|done|done].
      by rewrite EB, G1, decide_False.
    + intros w o' Hw. rewrite EB. destruct (I3 w o' Hw) as (l&G1&G2&G3). rewrite Hq' in G1, G3. cbn in G1, G3.
      exists l. split_and!; [done|done|]. rewrite G3. cbn.
      destruct (decide (v = w)); [|by rewrite !app_nil_r]. by rewrite <-app_assoc.
  - apply (hinv_frame s); cbn; try done; [apply objs_same|]. intros w. rewrite Hq'. cbn. by destruct (decide (v = w)).
Qed.
Lemma reach_hinv s : mreach s → hinv s.
Proof.
  induction 1 as [since|s s' _ IH Hs]; [|by eapply step_hinv].
  split_and!; cbn; intros *; rewrite ?lookup_empty; try done. intros _. split_and!; try done. tauto.
Qed.

(** ** The table follows the calls *)
Definition pend_ok (s : mst) (m : fstab) : Prop :=
  match m_call s with
  | None => view s = fs_os m
  | Some (c, CNew q e k) =>
      (∃ v, fs_call (λ _, true) m c = (v, None) ∧ fs_os v = <[q := (e, k)]> (view s)) ∧
      (∃ v, fs_call (λ _, false) m c = (v, Some ErrStart) ∧ fs_os v = view s)
  | Some (c, CCreate q w) | Some (c, CStart q w _) | Some (c, CIns q w _) =>
      ∀ o, m_objs s !! w = Some o →
      (∃ v, fs_call (λ _, true) m c = (v, None) ∧ fs_os v = <[q := (fw_events (o_w o), fw_isrec (o_w o))]> (view s)) ∧
      (∃ v, fs_call (λ _, false) m c = (v, Some ErrStart) ∧ fs_os v = view s)
  | Some (c, CStop p w None) | Some (c, CUnreg p w None) | Some (c, CDel p w None) =>
      ∃ v, fs_call (λ _, true) m c = (v, None) ∧ fs_os v = delete p (view s)
  | Some (c, CStop p w (Some (q, e))) | Some (c, CUnreg p w (Some (q, e))) | Some (c, CDel p w (Some (q, e))) =>
      (∃ v, fs_call (λ _, true) m c = (v, None) ∧ fs_os v = <[q := (e, true)]> (delete p (view s))) ∧
      (∃ v, fs_call (λ _, false) m c = (v, Some ErrStart) ∧ fs_os v = delete p (view s))
  | Some (c, CRec w k) =>
      ∃ v p o, fs_call (λ _, true) m c = (v, None) ∧ m_tab s !! p = Some w ∧ m_objs s !! w = Some o ∧
        fs_os v = <[p := (fw_events (o_w o), k)]> (view s)
  end.
Global Arguments view : simpl never.
Definition seq_ok (s : mst) : Prop := ∃ m, seq_run (m_log s) m ∧ pend_ok s m.
Lemma view_lookup s p : view s !! p = (m_tab s !! p) ≫= λ w, (λ o, (fw_events (o_w o), fw_isrec (o_w o))) <$> m_objs s !! w.
Proof. unfold view. by rewrite lookup_omap. Qed.
Lemma view_None s ph p : inv s ph → view s !! p = None ↔ m_tab s !! p = None.
Proof.
  intros I. rewrite view_lookup. destruct (m_tab s !! p) as [w|] eqn:E; [|done]. simpl. split; [|done].
  apply (i_tab _ _ I) in E as (h&H&_). destruct (ph_obj _ _ _ _ I H) as [o Ho]. unfold K in Ho. rewrite lookup_fmap in Ho.
  by destruct (m_objs s !! w).
Qed.
Lemma view_Some s p w o : m_tab s !! p = Some w → m_objs s !! w = Some o → view s !! p = Some (fw_events (o_w o), fw_isrec (o_w o)).
Proof. intros H1 H2. rewrite view_lookup, H1. simpl. by rewrite H2. Qed.
Lemma tab_inj s ph p p' w : inv s ph → m_tab s !! p = Some w → m_tab s !! p' = Some w → p = p'.
Proof.
  intros I (h&H1&H2)%(i_tab _ _ I) (h'&H3&H4)%(i_tab _ _ I). assert (h' = h) as -> by congruence. destruct h; simpl in *; subst; done.
Qed.
(** Changing the watch of [p]. *)
Lemma view_upd s s' ph p w o o' : inv s ph → m_tab s !! p = Some w → m_objs s !! w = Some o →
  m_tab s' = m_tab s → m_objs s' = <[w := o']> (m_objs s) → view s' = <[p := (fw_events (o_w o'), fw_isrec (o_w o'))]> (view s).
Proof.
  intros I Hp Ho Et Eo. apply map_eq. intros q. rewrite view_lookup, Et, Eo. destruct (decide (q = p)) as [->|Hne].
  - rewrite Hp, lookup_insert. simpl. by rewrite lookup_insert.
  - rewrite lookup_insert_ne, view_lookup by done. destruct (m_tab s !! q) as [v|] eqn:E; [|done]. simpl.
    rewrite lookup_insert_ne; [done|]. intros ->. apply Hne. by eapply tab_inj.
Qed.
(** Changing a watch without changing its set and kind, or one outside the table. *)
Lemma view_same s s' w o' : m_tab s' = m_tab s → m_objs s' = <[w := o']> (m_objs s) →
  (∀ p, m_tab s !! p = Some w → ∃ o, m_objs s !! w = Some o ∧ fw_events (o_w o') = fw_events (o_w o) ∧ fw_isrec (o_w o') = fw_isrec (o_w o)) → view s' = view s.
Proof.
  intros Et Eo H. apply map_eq. intros q. rewrite !view_lookup, Et, Eo. destruct (m_tab s !! q) as [v|] eqn:E; [|done]. simpl.
  destruct (decide (v = w)) as [->|Hne]; [|by rewrite lookup_insert_ne]. destruct (H q E) as (o&H1&H2&H3). rewrite lookup_insert, H1. simpl. by rewrite H2, H3.
Qed.

Lemma fs_os_none m p : fs_os m !! p = None ↔ m !! p = None.
Proof. unfold fs_os. rewrite lookup_fmap. by destruct (m !! p). Qed.
Lemma fs_os_some m p e k : fs_os m !! p = Some (e, k) → ∃ x, m !! p = Some x ∧ fw_events x = e ∧ fw_isrec x = k.
Proof. unfold fs_os. rewrite lookup_fmap. destruct (m !! p) as [x|]; [|done]. intros [= <- <-]. by exists x. Qed.
Lemma fs_os_insert m p x : fs_os (<[p := x]> m) = <[p := (fw_events x, fw_isrec x)]> (fs_os m).
Proof. unfold fs_os. by rewrite fmap_insert. Qed.
Lemma fs_os_delete m p : fs_os (delete p m) = delete p (fs_os m).
Proof. unfold fs_os. by rewrite fmap_delete. Qed.
(** Results of calls on the table without streams. *)
Lemma seq_err l m c err start : seq_run l m → fs_call start m c = (m, Some err) → seq_run (l ++ [(c, Some err)]) m.
Proof. intros H E. by eapply sr_call. Qed.
Lemma begin_seq s ph c : inv s ph → m_call s = None → seq_ok s → seq_ok (m_begin s c).
Proof.
  intros I Hc (m&Hm&Hv). unfold pend_ok in Hv. rewrite Hc in Hv.
  assert (∀ p, m_tab s !! p = None → m !! p = None) as Hnone.
  { intros p H. apply fs_os_none. rewrite <-Hv. by apply (view_None s ph). }
  assert (∀ p w, m_tab s !! p = Some w → ∃ o x, m_objs s !! w = Some o ∧ m !! p = Some x ∧ fw_events x = fw_events (o_w o) ∧ fw_isrec x = fw_isrec (o_w o)) as Hsome.
  { intros p w H. pose proof H as (h&H1&_)%(i_tab _ _ I). destruct (ph_obj _ _ _ _ I H1) as [y Hy]. unfold K in Hy. rewrite lookup_fmap in Hy.
    destruct (m_objs s !! w) as [o|] eqn:E; [|done]. pose proof (view_Some _ _ _ _ H E) as G. rewrite Hv in G.
    apply fs_os_some in G as (x&G1&G2&G3). by exists o, x. }
  assert (∀ err start, fs_call start m c = (m, Some err) → seq_ok (ret s c (Some err))) as Hret.
  { intros err start H. exists m. split; [by eapply seq_err|]. exact Hv. }
  assert (∀ p old new k, (fs_call (λ _, true) m c = match m !! p with None => (m, Some ErrNotWatched)
       | Some x => if fw_events x =? old then (<[p := with_events x new k]> m, None) else (m, Some ErrInvalidEventSet) end) →
     seq_ok (m_swap s c p old new k)) as Hswap.
  { intros p old new k H. unfold m_swap. destruct (m_tab s !! p) as [w|] eqn:E.
    - destruct (Hsome p w E) as (o&x&H1&H2&H3&H4). rewrite H1. rewrite H2, H3 in H. destruct (_ =? _).
      + exists m. split; [done|]. unfold pend_ok. cbn. eexists _, p, _. split_and!; [done|done|by rewrite lookup_insert|].
        rewrite fs_os_insert. cbn. erewrite (view_upd s _ ph p w o (set_ev o new)) by done. cbn. rewrite insert_insert. by rewrite Hv.
      + by eapply Hret.
    - rewrite (Hnone p E) in H. by eapply Hret. }
  unfold m_begin. destruct c as [p e|p|p old new|p e|p|p q old new].
  - destruct (m_tab s !! p) as [w|] eqn:E.
    + destruct (Hsome p w E) as (o&x&H1&H2&_). apply (Hret _ (λ _, true)). cbn. unfold fs_watch. by rewrite H2.
    + exists m. split; [done|]. apply Hnone in E. unfold pend_ok. cbn. unfold fs_watch. rewrite E. split; eexists; (split; [done|]); [|done].
      rewrite fs_os_insert. cbn. by rewrite <-Hv.
  - destruct (m_tab s !! p) as [w|] eqn:E.
    + destruct (Hsome p w E) as (o&x&H1&H2&_). exists m. split; [done|]. unfold pend_ok. cbn. unfold fs_unwatch. rewrite H2.
      eexists. split; [done|]. rewrite fs_os_delete. by rewrite <-Hv.
    + apply (Hret _ (λ _, true)). cbn. unfold fs_unwatch. by rewrite Hnone.
  - apply Hswap. done.
  - destruct (m_tab s !! p) as [w|] eqn:E.
    + destruct (Hsome p w E) as (o&x&H1&H2&_). apply (Hret _ (λ _, true)). cbn. unfold fs_watch. by rewrite H2.
    + exists m. split; [done|]. apply Hnone in E. unfold pend_ok. cbn. unfold fs_watch. rewrite E. split; eexists; (split; [done|]); [|done].
      rewrite fs_os_insert. cbn. by rewrite <-Hv.
  - destruct (m_tab s !! p) as [w|] eqn:E.
    + destruct (Hsome p w E) as (o&x&H1&H2&_). exists m. split; [done|]. unfold pend_ok. cbn. unfold fs_unwatch. rewrite H2.
      eexists. split; [done|]. rewrite fs_os_delete. by rewrite <-Hv.
    + apply (Hret _ (λ _, true)). cbn. unfold fs_unwatch. by rewrite Hnone.
  - case_bool_decide as Hpq.
    + subst q. destruct (N.eqb_spec old new) as [->|Hne].
      * destruct (m_tab s !! p) as [w|] eqn:E.
        -- destruct (Hsome p w E) as (o&x&H1&H2&H3&H4). exists m. split; [done|]. unfold pend_ok. cbn. unfold fs_recrewatch.
           rewrite bool_decide_true, H2, N.eqb_refl by done. eexists _, p, o. split_and!; [done..|]. rewrite fs_os_insert. cbn.
           change (view _) with (view s). by rewrite <-Hv, H3.
        -- apply (Hret _ (λ _, true)). cbn. unfold fs_recrewatch. by rewrite bool_decide_true, Hnone.
      * apply Hswap. cbn. unfold fs_recrewatch. rewrite bool_decide_true by done. destruct (m !! p); [|done].
        by destruct (N.eqb_spec old new).
    + destruct (m_tab s !! q) as [w|] eqn:Eq.
      { destruct (Hsome q w Eq) as (o&x&H1&H2&_). apply (Hret _ (λ _, true)). cbn. unfold fs_recrewatch. by rewrite bool_decide_false, H2. }
      destruct (m_tab s !! p) as [w|] eqn:E.
      * destruct (Hsome p w E) as (o&x&H1&H2&_). exists m. split; [done|]. unfold pend_ok. cbn. unfold fs_recrewatch, fs_unwatch, fs_watch.
        rewrite bool_decide_false, (Hnone q Eq), H2 by done. rewrite lookup_delete_ne, (Hnone q Eq) by done.
        split; eexists; (split; [done|]).
        -- rewrite fs_os_insert, fs_os_delete. cbn. by rewrite <-Hv.
        -- rewrite fs_os_delete. by rewrite <-Hv.
      * apply (Hret _ (λ _, true)). cbn. unfold fs_recrewatch, fs_unwatch. by rewrite bool_decide_false, (Hnone q Eq), (Hnone p E).
Qed.
(** Steps of the queue. *)
Lemma seq_frame s s' : m_call s' = m_call s → m_log s' = m_log s → view s' = view s → m_tab s' = m_tab s →
  (∀ w, (λ o, (fw_events (o_w o), fw_isrec (o_w o))) <$> m_objs s' !! w = (λ o, (fw_events (o_w o), fw_isrec (o_w o))) <$> m_objs s !! w) → seq_ok s → seq_ok s'.
Proof.
  intros Ec El Ev Et Eo (m&Hm&Hp). exists m. rewrite El. split; [done|]. unfold pend_ok in *. rewrite Ec, Ev, Et.
  assert (∀ w o', m_objs s' !! w = Some o' → ∃ o, m_objs s !! w = Some o ∧ fw_events (o_w o) = fw_events (o_w o') ∧ fw_isrec (o_w o) = fw_isrec (o_w o')) as H1.
  { intros w o' H. specialize (Eo w). rewrite H in Eo. destruct (m_objs s !! w) as [o|]; [|done]. injection Eo as G1 G2. by exists o. }
  assert (∀ w o, m_objs s !! w = Some o → ∃ o', m_objs s' !! w = Some o' ∧ fw_events (o_w o) = fw_events (o_w o') ∧ fw_isrec (o_w o) = fw_isrec (o_w o')) as H2.
  { intros w o' H. specialize (Eo w). rewrite H in Eo. destruct (m_objs s' !! w) as [o|]; [|done]. injection Eo as G1 G2. by exists o. }
  destruct (m_call s) as [[c pc]|]; [|done]. destruct pc; try done.
  1,2,3: intros o' Ho'; destruct (H1 w o' Ho') as (o&G1&<-&<-); by apply Hp.
  destruct Hp as (v&p&o&G1&G2&G3&G4). destruct (H2 w o G3) as (o'&G5&G6&G7). exists v, p, o'. split_and!; try done. by rewrite <-G6.
Qed.
Lemma dispatch1_ev e k x ev : fw_events (dispatch1 e k x ev).1 = fw_events x ∧ fw_isrec (dispatch1 e k x ev).1 = fw_isrec x.
Proof.
  unfold dispatch1, strip. destruct (negb _); [done|]. destruct (negb _); [done|]. destruct (_ && _); [done|].
  destruct (fs_base _ _ _ _) as [base|]; [|done]. destruct (strip1 _ _) as [[v|] z]; destruct (_ =? 0); done.
Qed.
Lemma view_objs_tab s s' : m_objs s' = m_objs s → m_tab s' = m_tab s → view s' = view s.
Proof. intros H1 H2. unfold view. by rewrite H1, H2. Qed.
Lemma view_tab_insert s s' p w o : m_objs s' = m_objs s → m_tab s' = <[p := w]> (m_tab s) → m_objs s !! w = Some o →
  view s' = <[p := (fw_events (o_w o), fw_isrec (o_w o))]> (view s).
Proof.
  intros H1 H2 H3. apply map_eq. intros q. rewrite view_lookup, H1, H2. destruct (decide (q = p)) as [->|Hne].
  - rewrite !lookup_insert. simpl. by rewrite H3.
  - by rewrite !lookup_insert_ne, view_lookup by done.
Qed.
Lemma view_tab_delete s s' p : m_objs s' = m_objs s → m_tab s' = delete p (m_tab s) → view s' = delete p (view s).
Proof.
  intros H1 H2. apply map_eq. intros q. rewrite view_lookup, H1, H2. destruct (decide (q = p)) as [->|Hne].
  - by rewrite !lookup_delete.
  - by rewrite !lookup_delete_ne, view_lookup by done.
Qed.
Lemma step_seq s s' ph : inv s ph → seq_ok s → mstep s s' → seq_ok s'.
Proof.
  intros I Hsq Hs. destruct Hs as
    [s c Hc|s c p e k w Hc Hw|s c p w Hc|s c p w o r Hc Ho Hr|s c p w r Hc|s c p w r x Hc Hx|s c p w r o Hc Ho|s c p w cont o Hc Ho Hr
    |s c p w cont o r x Hc Ho Hr Hx|s c p w cont o Hc Ho|s c p w Hc|s c p w q e Hc|s c w k o Hc Ho|s r x evs Hx Hrun|s r l Hq Hp
    |s r x evs l Hq Hp Hne Hx Hreg|s r x evs l w Hq Hp Hne Hx Hreg|s r w evs o id Hq Ho Hid|s r w evs e o Hq Ho
    |s w e k ev evs o Hq Ho|s w e k evs x out Hq|s w e k Hq];
    try (eapply (seq_frame s); try done; by apply view_objs_tab);
    pose proof (i_pc _ _ I) as Hpc; unfold pc_ok in Hpc; try rewrite Hc in Hpc;
    pose proof Hsq as (m&Hm&Hv); unfold pend_ok in Hv; try rewrite Hc in Hv.
  - by eapply begin_seq.
  - exists m. split; [done|]. unfold pend_ok. cbn. intros o. rewrite lookup_insert. intros [= <-]. cbn.
    erewrite (view_same s) by (try done; cbn; intros q Hq; apply (i_tab _ _ I) in Hq as (h&Hq&_);
      destruct (ph_obj _ _ _ _ I Hq) as [y Hy]; apply K_None in Hw; congruence). done.
  - destruct Hpc as (_&Hph&_). destruct (ph_obj _ _ _ _ I Hph) as [y Hy]. unfold K in Hy. rewrite lookup_fmap in Hy.
    destruct (m_objs s !! w) as [o|] eqn:E; [|done]. destruct (Hv o eq_refl) as [_ (v&H1&H2)]. exists v. split; [by eapply sr_call|]. done.
  - exists m. split; [done|]. unfold pend_ok. cbn. done.
  - destruct Hpc as (_&Hph&_). destruct (ph_obj _ _ _ _ I Hph) as [y Hy]. unfold K in Hy. rewrite lookup_fmap in Hy.
    destruct (m_objs s !! w) as [o|] eqn:E; [|done]. destruct (Hv o eq_refl) as [_ (v&H1&H2)]. exists v. split; [by eapply sr_call|]. done.
  - exists m. split; [done|]. unfold pend_ok. cbn. done.
  - destruct (Hv o Ho) as [(v&H1&H2) _]. exists v. split; [by eapply sr_call|]. unfold pend_ok. cbn. rewrite H2.
    destruct Hpc as (_&Hph&_).
    erewrite (view_tab_insert (set_objs s (<[w := set_ref o (Some r)]> (m_objs s))) _ p w (set_ref o (Some r))); [|done|done|cbn; by rewrite lookup_insert].
    cbn. f_equal. apply (view_same s _ w (set_ref o (Some r))); try done. intros q Hq. by destruct (tab_other _ _ _ _ I Hph (λ _ x, x) q).
  - exists m. split; [done|]. unfold pend_ok. cbn. by destruct cont as [[q e]|].
  - exists m. split; [done|]. unfold pend_ok. cbn.
    assert (∀ s', m_tab s' = m_tab s → m_objs s' = <[w := set_ref o None]> (m_objs s) → view s' = view s) as EV.
    { intros s' E1 E2. apply (view_same s _ w (set_ref o None)); try done. intros q _. by exists o. }
    destruct cont as [[q e]|]; erewrite EV by done; done.
  - exists m. split; [done|]. unfold pend_ok. cbn. by destruct cont as [[q e]|].
  - destruct Hv as (v&H1&H2). exists v. split; [by eapply sr_call|]. unfold pend_ok. cbn. rewrite H2. by apply view_tab_delete.
  - exists m. split; [done|]. unfold pend_ok. cbn. erewrite (view_tab_delete s) by done. done.
  - destruct Hv as (v&p&o'&H1&H2&H3&H4). assert (o' = o) as -> by congruence. exists v. split; [by eapply sr_call|]. unfold pend_ok. cbn. rewrite H4.
    by apply (view_upd s _ ph p w o (set_rec o k)).
  - assert (∀ v, (λ o, (fw_events (o_w o), fw_isrec (o_w o))) <$> <[w := WObj (dispatch1 e k (o_w o) ev).1 (o_ref o) (o_info o)]> (m_objs s) !! v =
       (λ o, (fw_events (o_w o), fw_isrec (o_w o))) <$> m_objs s !! v) as EO.
    { intros v. destruct (decide (v = w)) as [->|Hne]; [|by rewrite lookup_insert_ne]. rewrite lookup_insert, Ho. simpl.
      by destruct (dispatch1_ev e k (o_w o) ev) as [-> ->]. }
    eapply (seq_frame s); try done. apply map_eq. intros q. rewrite !view_lookup. cbn. destruct (m_tab s !! q) as [v|]; [|done]. simpl. apply EO.
Qed.
Lemma reach_seq s : mreach s → seq_ok s.
Proof.
  induction 1 as [since|s s' Hr IH Hs]; [exists (∅ : fstab); split; [apply sr_nil|apply map_eq; intros p; rewrite view_lookup; unfold fs_os; by rewrite fmap_empty]|]. destruct (reach_inv s Hr) as [ph I]. by eapply step_seq.
Qed.

(** ** Between calls *)
Definition meas (s : mst) : nat := (2 * length (m_log s) + if m_call s then 1 else 0)%nat.
Definition set_kind (m : gmap N wobj) (w : N) : option (N * bool) := (λ o, (fw_events (o_w o), fw_isrec (o_w o))) <$> m !! w.
Lemma begin_meas s c : m_call s = None → (meas s < meas (m_begin s c))%nat ∨ m_begin s c = s.
Proof.
  intros Hc. unfold m_begin, m_swap, meas. rewrite Hc. destruct c; repeat (case_match; try (by right)); left; cbn; rewrite ?app_length; cbn; lia.
Qed.
Lemma step_meas s s' : mstep s s' → (meas s ≤ meas s')%nat.
Proof.
  intros Hs. destruct Hs as [s c Hc| | | | | | | | | | | | | | | | | | | | |];
    [destruct (begin_meas s c Hc) as [?| ->]; lia|..]; unfold meas; cbn;
    try match goal with H : m_call _ = _ |- _ => rewrite H end; rewrite ?app_length; cbn; lia.
Qed.
Lemma steps_meas s s' : msteps s s' → (meas s ≤ meas s')%nat.
Proof. induction 1 as [|s s1 s2 H _ IH]; [done|]. apply step_meas in H. lia. Qed.
Lemma quiet_step s s' : m_call s = None → mstep s s' → (meas s < meas s')%nat ∨
  (m_call s' = None ∧ m_tab s' = m_tab s ∧ ∀ w, set_kind (m_objs s') w = set_kind (m_objs s) w).
Proof.
  intros Hn Hs. destruct Hs; try (right; done); try congruence.
  - destruct (begin_meas s c) as [|E]; [done|by left|right; by rewrite E].
  - right. split_and!; [done..|]. intros v. unfold set_kind. cbn. destruct (decide (v = w)) as [->|Hne]; [|by rewrite lookup_insert_ne].
    rewrite lookup_insert, H0. simpl. by destruct (dispatch1_ev e k (o_w o) ev) as [-> ->].
Qed.
Lemma begun_step s s' w e k : m_call s = None → mstep s s' → (meas s = meas s')%nat → set_kind (m_objs s) w = Some (e, k) →
  (∀ r evs e', m_q s = QEv r w evs e' → e' = e) →
  (∀ r evs e', m_q s' = QEv r w evs e' → e' = e) ∧
  ∃ new, m_begun s' = m_begun s ++ new ∧ ∀ r e' k' evs, (r, w, (e', k', evs)) ∈ new → e' = e ∧ k' = k.
Proof.
  intros Hn Hs Hm Hk Hq. destruct Hs; try congruence;
    try (split; [done|exists []; split; [by rewrite app_nil_r|]; by intros ???? ?%elem_of_nil]).
  - destruct (begin_meas s c) as [|E]; [done|lia|]. rewrite E. split; [done|]. exists []. split; [by rewrite app_nil_r|]. by intros ???? ?%elem_of_nil.
  - split; [|exists []; split; [by rewrite app_nil_r|]; by intros ???? ?%elem_of_nil]. cbn. intros r' evs' e' [= -> -> _ <-].
    unfold set_kind in Hk. rewrite H0 in Hk. simpl in Hk. congruence.
  - split; [done|]. eexists. split; [done|]. intros r' e' k' evs' Hin. apply elem_of_list_singleton in Hin as [= -> -> -> -> ->].
    unfold set_kind in Hk. rewrite H0 in Hk. simpl in Hk. split; [|congruence]. by eapply Hq.
Qed.
