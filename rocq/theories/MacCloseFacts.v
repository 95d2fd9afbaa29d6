(** * MacCloseFacts: proofs about closing the tree on macOS *)
From Verif Require Import Base Event Paths PathsFacts Node SpecOS Fsev SpecFsev FsevFacts MacConc SpecMacConc MacConcFacts MacClose SpecMacClose.
Local Open Scope N_scope.

(** ** Steps of the queue and the OS *)
Definition shift (m : mst) (t : gmap str N) (c : option (wcall * cpc)) : mst := set_call (set_tab m t) c.
Lemma shift_id m : shift m (m_tab m) (m_call m) = m.
Proof. by destruct m. Qed.
Lemma snoc_neq {A} (l : list A) x : l ++ [x] = l → False.
Proof. intros H. apply (f_equal length) in H. rewrite app_length in H. simpl in H. lia. Qed.
Lemma begin_no_call m c : m_call m = None → no_call m (m_begin m c) → m_begin m c = m.
Proof.
  intros Hc [H1 H2]. rewrite Hc in H1. revert H1 H2. unfold m_begin, m_swap.
  destruct c; repeat (case_match; cbn; try done; try (intros _ ?; by edestruct @snoc_neq)).
Qed.
Lemma run_shift m m' : mstep m m' → no_call m m' →
  m' = m ∨ (m_tab m' = m_tab m ∧ (∀ w, set_kind (m_objs m') w = set_kind (m_objs m) w) ∧ ∀ t c, mstep (shift m t c) (shift m' t c)).
Proof.
  intros Hs. destruct Hs; intros [N1 N2]; cbn in N1, N2;
    try (match goal with H : m_call _ = _ |- _ => rewrite H in N1 end; discriminate N1); try (by edestruct @snoc_neq).
  - left. apply begin_no_call; [done|]. by split.
  - right. split_and!; [done|done|]. intros t c. by apply (ms_feed (shift s t c) r x evs).
  - right. split_and!; [done|done|]. intros t c. by apply (ms_pop_empty (shift s t c) r l).
  - right. split_and!; [done|done|]. intros t c. by apply (ms_pop_unknown (shift s t c) r x evs l).
  - right. split_and!; [done|done|]. intros t c. by apply (ms_pop (shift s t c) r x evs l w).
  - right. split_and!; [done|done|]. intros t c. by apply (ms_load_ev (shift s t c) r w evs o id).
  - right. split_and!; [done|done|]. intros t c. by apply (ms_load_rec (shift s t c) r w evs e o).
  - right. split_and!; [done| |]; [|intros t c; by apply (ms_next (shift s t c) w e k ev evs o)]. intros v. unfold set_kind. cbn.
    destruct (decide (v = w)) as [->|Hne]; [|by rewrite lookup_insert_ne]. rewrite lookup_insert, H0. simpl. by destruct (dispatch1_ev e k (o_w o) ev) as [-> ->].
  - right. split_and!; [done|done|]. intros t c. by apply (ms_send (shift s t c) w e k evs x out).
  - right. split_and!; [done|done|]. intros t c. by apply (ms_done (shift s t c) w e k).
Qed.
Lemma run_same m m' : mstep m m' → no_call m m' → m_tab m' = m_tab m ∧ ∀ w, set_kind (m_objs m') w = set_kind (m_objs m) w.
Proof. intros H1 H2. destruct (run_shift _ _ H1 H2) as [->|(?&?&_)]; done. Qed.

(** ** The invariant *)
(** [t]: the part of the table that Close has not dealt with. *)
Definition rest_ok (s : cls) (t : gmap str N) (l : list N) : Prop :=
  NoDup l ∧ (∀ p w, t !! p = Some w ↔ m_tab (x_m s) !! p = Some w ∧ w ∈ l) ∧ ∀ w, w ∈ l → ∃ p, t !! p = Some w.
Definition xinv (s : cls) : Prop :=
  (x_nil s = true → m_tab (x_m s) = ∅) ∧
  match x_pc s with
  | XIdle => ∃ ph, inv (x_m s) ph
  | XChan => m_tab (x_m s) = ∅ ∧ m_call (x_m s) = None ∧ ∃ ph, inv (x_m s) ph
  | XLoop l | XEv _ l | XRec _ l => m_call (x_m s) = None ∧ ∃ ph t, inv (shift (x_m s) t None) ph ∧ rest_ok s t l
  | XUnreg w l => m_call (x_m s) = None ∧ ∃ ph t p, inv (shift (x_m s) t (Some (WUnwatch p, CUnreg p w None))) ph ∧ rest_ok s t (w :: l) ∧ t !! p = Some w
  end.
Lemma xinv_init since : xinv (x_init since).
Proof. split; [done|]. cbn. exists ∅. apply init_inv. Qed.
Lemma xinv_step s l s' : xinv s → xstep s l s' → xinv s'.
Proof.
  intros [Hnil Hpc] Hs. destruct Hs as [m Hp Hm Hn Hb|m Hp Hx Hm Hn Hb|m Hp Hm Hn Hb|order Hp Hx Hc Ho|w l o Hp Hx Ho Hr|w l o r x Hp Hx Ho Hr Hos
    |w l o Hp Hx Ho|w l o Hp Hx Ho|w l o Hp Hx Ho|Hp Hx|Hp Hx Hch|Hp Hx Hch].
  - destruct (run_same _ _ Hm Hn) as [Et _]. destruct Hn as [N1 N2]. split; [cbn; intros H; by rewrite Et; apply Hnil|]. cbn [x_pc x_with x_m].
    assert (∀ t c ph, inv (shift (x_m s) t c) ph → ∃ ph', inv (shift m t c) ph') as Hsh.
    { intros t c ph I. destruct (run_shift _ _ Hm (conj N1 N2)) as [->|(_&_&G)]; [by exists ph|]. destruct (step_inv _ _ _ I (G t c)) as (ph'&I'&_). by exists ph'. }
    assert (∀ ph, inv (x_m s) ph → ∃ ph', inv m ph') as Hid. { intros ph I. destruct (step_inv _ _ _ I Hm) as (ph'&I'&_). by exists ph'. }
    destruct (x_pc s) as [|l|w l|w l|w l|]; rewrite ?N1.
    + destruct Hpc as [ph I]. by eapply Hid.
    + destruct Hpc as (Hc&ph&t&I&R). destruct (Hsh _ _ _ I) as [ph' I']. split; [done|]. exists ph', t. split; [done|]. unfold rest_ok. cbn. by rewrite Et.
    + destruct Hpc as (Hc&ph&t&p&I&R&Ht). destruct (Hsh _ _ _ I) as [ph' I']. split; [done|]. exists ph', t, p. split_and!; [done| |done]. unfold rest_ok. cbn. by rewrite Et.
    + destruct Hpc as (Hc&ph&t&I&R). destruct (Hsh _ _ _ I) as [ph' I']. split; [done|]. exists ph', t. split; [done|]. unfold rest_ok. cbn. by rewrite Et.
    + destruct Hpc as (Hc&ph&t&I&R). destruct (Hsh _ _ _ I) as [ph' I']. split; [done|]. exists ph', t. split; [done|]. unfold rest_ok. cbn. by rewrite Et.
    + destruct Hpc as (Ht&Hc&ph&I). split_and!; [by rewrite Et|done|]. by eapply Hid.
  - rewrite Hx in Hpc. destruct Hpc as [ph I]. split; cbn.
    + intros H. destruct (decide (m_tab m = m_tab (x_m s))) as [->|Hne]; [by apply Hnil|]. destruct Hb. left. done.
    + destruct (step_inv _ _ _ I Hm) as (ph'&I'&_). by exists ph'.
  - split; [done|]. cbn. destruct (x_pc s); done.
  - rewrite Hx in Hpc. destruct Hpc as [ph I]. split; [done|]. cbn. split; [done|]. exists ph, (m_tab (x_m s)).
    assert (∀ w, w ∈ order ↔ ∃ p, m_tab (x_m s) !! p = Some w) as Hin.
    { intros w. rewrite Ho, elem_of_list_fmap. split; [intros ([p v]&->&H%elem_of_map_to_list); by exists p|]. intros [p H]. exists (p, w). split; [done|]. by apply elem_of_map_to_list. }
    split; [rewrite <-Hc, shift_id; done|]. split_and!.
    + rewrite Ho. apply NoDup_fmap_2_strong; [|apply NoDup_map_to_list]. intros [p v] [q v'] H1%elem_of_map_to_list H2%elem_of_map_to_list E. cbn in E. subst v'.
      by rewrite (tab_inj _ _ p q v I H1 H2).
    + intros p w. split; [|by intros []]. intros H. split; [done|]. apply Hin. by exists p.
    + intros w H. by apply Hin.
  - rewrite Hx in Hpc. destruct Hpc as (Hc&ph&t&I&R1&R2&R3). destruct (R3 w) as [p Ht]; [by left|].
    destruct (begin_tab _ _ p w I eq_refl Ht) as [r Hph]. pose proof (K_lookup (shift (x_m s) t None) _ _ Ho) as HK. pose proof (i_ref _ _ I w _ p r HK Hph) as E. cbn in E. congruence.
  - rewrite Hx in Hpc. destruct Hpc as (Hc&ph&t&I&R1&R2&R3). destruct (R3 w) as [p Ht]; [by left|]. split; [done|]. cbn. split; [done|].
    pose proof (begin_inv _ _ (WUnwatch p) I eq_refl) as I1. cbn [m_begin] in I1. change (m_tab (shift (x_m s) t None)) with t in I1. rewrite Ht in I1.
    pose proof (stop_inv _ _ _ _ _ _ _ _ _ I1 eq_refl Ho Hr Hos) as I2. eexists _, t, p. split_and!; [exact I2|done|done].
  - rewrite Hx in Hpc. destruct Hpc as (Hc&ph&t&p&I&[R1 [R2 R3]]&Ht). split; [done|]. cbn. split; [done|].
    pose proof (unreg_inv _ _ _ _ _ _ _ I eq_refl Ho) as I1. apply NoDup_cons in R1 as [Hw R1].
    pose proof (i_pc _ _ I1) as Hpc. cbn in Hpc. destruct Hpc as (_&Hph&Hon&_).
    exists (<[w := PGone]> (<[w := PDel p]> ph)), (delete p t). split.
    + eapply (del_inv _ _ _ p w I1); try done. unfold pc_ok. cbn. apply only_clear; [done|simpl; tauto].
    + split_and!; [done|..].
      * intros q v. cbn. split.
        -- intros [Hne H]%lookup_delete_Some. pose proof H as [G1 G2]%R2. split; [done|]. apply elem_of_cons in G2 as [->|G2]; [|done]. destruct Hne. by rewrite (tab_inj _ _ p q w I Ht H).
        -- intros [H1 H2]. assert (t !! q = Some v) as H. { apply R2. split; [done|by right]. } rewrite lookup_delete_ne; [done|]. intros ->. congruence.
      * intros v H. destruct (R3 v) as [q Hq]; [by right|]. exists q. rewrite lookup_delete_ne; [done|]. intros ->. congruence.
  - rewrite Hx in Hpc. destruct Hpc as (Hc&ph&t&I&R). split; [done|]. cbn. split; [done|]. exists ph, t. split; [|done].
    apply (inv_frame _ _ _ I); try done; [|exact (i_q _ _ I)|exact (i_pc _ _ I)]. cbn. exact (K_same (x_m s) w o (set_ev o 0) Ho eq_refl).
  - rewrite Hx in Hpc. destruct Hpc as (Hc&ph&t&I&R). split; [done|]. cbn. split; [done|]. exists ph, t. split; [|done].
    apply (inv_frame _ _ _ I); try done; [|exact (i_q _ _ I)|exact (i_pc _ _ I)]. cbn. exact (K_same (x_m s) w o (set_rec o false) Ho eq_refl).
  - rewrite Hx in Hpc. destruct Hpc as (Hc&ph&t&I&R1&R2&R3). split; [done|]. cbn. split_and!; [done|done|]. exists ph.
    assert (t = ∅) as ->. { apply map_empty. intros p. destruct (t !! p) as [w|] eqn:E; [|done]. apply R2 in E as [_ E]. by apply elem_of_nil in E. }
    assert (set_tab (x_m s) ∅ = shift (x_m s) ∅ None) as -> by (unfold shift; rewrite <-Hc; by destruct (x_m s)). done.
  - rewrite Hx in Hpc. destruct Hpc as (Ht&Hc&Hi). split; [done|]. done.
  - split; [done|]. cbn. destruct (x_pc s); done.
Qed.
Lemma xinv_steps s tr s' : xinv s → xsteps s tr s' → xinv s'.
Proof. intros I Hs. induction Hs as [|s tr s1 l s2 _ IH H]; [done|]. eapply xinv_step; [by apply IH|done]. Qed.
Lemma xinv_exec since tr s : xexec since tr s → xinv s.
Proof. apply xinv_steps, xinv_init. Qed.

(** ** The sets of the watches *)
Definition zero (m : gmap N wobj) (w : N) : Prop := set_kind m w = Some (0, false).
Definition zinv (T : gmap str N) (s : cls) : Prop :=
  match x_pc s with
  | XIdle => False
  | XLoop l => m_tab (x_m s) = T ∧ ∀ p w, T !! p = Some w → w ∈ l ∨ zero (m_objs (x_m s)) w
  | XUnreg v l | XEv v l => m_tab (x_m s) = T ∧ ∀ p w, T !! p = Some w → w ∈ v :: l ∨ zero (m_objs (x_m s)) w
  | XRec v l => m_tab (x_m s) = T ∧ (∀ p w, T !! p = Some w → w ∈ v :: l ∨ zero (m_objs (x_m s)) w) ∧ ∃ k, set_kind (m_objs (x_m s)) v = Some (0, k)
  | XChan => ∀ p w, T !! p = Some w → zero (m_objs (x_m s)) w
  end.
Lemma zero_keep (m m' : gmap N wobj) w : set_kind m' w = set_kind m w → zero m w → zero m' w.
Proof. unfold zero. by intros ->. Qed.
Lemma zero_other (m : gmap N wobj) v o w : v ≠ w → zero m w → zero (<[v := o]> m) w.
Proof. intros Hne. unfold zero, set_kind. by rewrite lookup_insert_ne. Qed.
Lemma zinv_step T s l s' : zinv T s → xstep s l s' → l ≠ AShut → zinv T s'.
Proof.
  intros Z Hs Hl. unfold zinv in *. destruct Hs as [m Hp Hm Hn Hb|m Hp Hx Hm Hn Hb|m Hp Hm Hn Hb|order Hp Hx Hc Ho|w l o Hp Hx Ho Hr|w l o r x Hp Hx Ho Hr Hos
    |w l o Hp Hx Ho|w l o Hp Hx Ho|w l o Hp Hx Ho|Hp Hx|Hp Hx Hch|Hp Hx Hch]; cbn [x_pc x_m x_with]; try done; try (rewrite Hx in Z); try done.
  - destruct (run_same _ _ Hm Hn) as [Et Ek]. destruct (x_pc s) as [|l|w l|w l|w l|]; rewrite ?Et; [done|..].
    + destruct Z as [Z1 Z2]. split; [done|]. intros p v H. destruct (Z2 p v H) as [|G]; [by left|right; eapply zero_keep; [apply Ek|exact G]].
    + destruct Z as [Z1 Z2]. split; [done|]. intros p v H. destruct (Z2 p v H) as [|G]; [by left|right; eapply zero_keep; [apply Ek|exact G]].
    + destruct Z as [Z1 Z2]. split; [done|]. intros p v H. destruct (Z2 p v H) as [|G]; [by left|right; eapply zero_keep; [apply Ek|exact G]].
    + destruct Z as (Z1&Z2&k&Z3). split_and!; [done| |exists k; by rewrite Ek]. intros p v H. destruct (Z2 p v H) as [|G]; [by left|right; eapply zero_keep; [apply Ek|exact G]].
    + intros p v H. eapply zero_keep; [apply Ek|by eapply Z].
  - destruct Z as [Z1 Z2]. split; [done|]. intros p v H. destruct (Z2 p v H) as [|G]; [by left|right]. eapply zero_keep; [|done]. unfold set_kind. cbn.
    destruct (decide (w = v)) as [->|Hne]; [|by rewrite lookup_insert_ne]. by rewrite lookup_insert, Ho.
  - destruct Z as [Z1 Z2]. split_and!; [done| |].
    + intros p v H. destruct (decide (w = v)) as [->|Hne]; [left; by left|]. destruct (Z2 p v H) as [|G]; [by left|right]. by apply zero_other.
    + eexists. unfold set_kind. cbn. by rewrite lookup_insert.
  - destruct Z as (Z1&Z2&k&Z3). split; [done|]. intros p v H. cbn. destruct (decide (w = v)) as [->|Hne].
    + right. unfold zero, set_kind in *. rewrite lookup_insert. rewrite Ho in Z3. cbn in Z3 |- *. congruence.
    + destruct (Z2 p v H) as [G|G]; [|right; by apply zero_other]. apply elem_of_cons in G as [->|G]; [done|by left].
  - destruct Z as [Z1 Z2]. intros p v H. destruct (Z2 p v H) as [G|G]; [by apply elem_of_nil in G|done].
Qed.
Lemma closes_state s0 s : closes s0 s →
  xinv s ∧ x_pc s = XIdle ∧ x_nil s = true ∧ x_chan s = true ∧ x_panic s = false ∧ m_call (x_m s) = None ∧ m_tab (x_m s) = ∅ ∧
  ∀ p w, m_tab (x_m s0) !! p = Some w → zero (m_objs (x_m s)) w.
Proof.
  intros (since&tr0&s1&tr&s2&Hx&Hc&Hs&Hn1&Hn2&Hsh). pose proof (xinv_exec _ _ _ Hx) as I0. pose proof (xinv_step _ _ _ I0 Hc) as I1. pose proof (xinv_steps _ _ _ I1 Hs) as I2.
  pose proof (xinv_step _ _ _ I2 Hsh) as I3.
  assert (zinv (m_tab (x_m s0)) s2) as Z.
  { assert (zinv (m_tab (x_m s0)) s1) as Z1.
    { remember AClose as l eqn:E. destruct Hc as [| | |order Hp Hxi Hcl Ho| | | | | | | |]; try discriminate E. unfold zinv. cbn. split; [done|]. intros p w H. left. rewrite Ho, elem_of_list_fmap.
      exists (p, w). split; [done|]. by apply elem_of_map_to_list. }
    clear - Z1 Hs Hn2. induction Hs as [|s tr s1 l s2 _ IH H]; [done|]. apply not_elem_of_app in Hn2 as [H1 H2]. eapply zinv_step; [by apply IH|done|]. intros ->. apply H2. by left. }
  assert (x_pc s2 = XChan → x_nil s2 = true) as Hnil.
  { assert (x_pc s1 ≠ XChan) as H1. { remember AClose as l eqn:E. destruct Hc; try discriminate E. done. }
    clear - H1 Hs. assert (x_pc s1 = XChan → x_nil s1 = true) as Hi by done. clear H1. induction Hs as [|s tr s1 l s2 _ IH H]; [done|]. specialize (IH Hi). destruct H; cbn; try done. }
  remember AShut as l eqn:E. destruct Hsh as [| | | | | | | | | |Hp Hxc Hch|]; try discriminate E. cbn in *. destruct I2 as [_ I2]. rewrite Hxc in I2. destruct I2 as (Ht&Hcall&_).
  unfold zinv in Z. rewrite Hxc in Z. split_and!; try done. by apply Hnil.
Qed.

(** ** After Close *)
(** All watches are gone. *)
Lemma all_dead m ph w h : inv m ph → m_call m = None → m_tab m = ∅ → ph !! w = Some h → dead h.
Proof.
  intros I Hc Ht Hh. pose proof (i_pc _ _ I) as Hpc. unfold pc_ok in Hpc. rewrite Hc in Hpc. specialize (Hpc w h Hh).
  destruct h; simpl in Hpc; try tauto; [|by left|by right]. assert (m_tab m !! p = Some w) as H. { apply (i_tab _ _ I). by eexists. } by rewrite Ht, lookup_empty in H.
Qed.
Lemma dead_pend m ph r x evs l w : inv m ph → m_call m = None → m_tab m = ∅ → m_pend m = (r, evs) :: l → m_os m !! r = Some x → m_reg m !! os_info x = Some w → False.
Proof.
  intros I Hc Ht Hp Hx Hr. apply (i_reg _ _ I) in Hr as (o&h&H1&H2&H3&H4). destruct (i_pend _ _ I r evs) as (x'&w'&o'&h'&G1&G2&G3&G4&G5); [rewrite Hp; by left|].
  assert (x' = x) as -> by congruence. assert (w' = w) as -> by (eapply (i_inj _ _ I); [done..|congruence]). assert (h' = h) as -> by congruence.
  destruct (all_dead _ _ _ _ I Hc Ht H3) as [-> | ->]; done.
Qed.
Lemma dispatch1_zero k x ev : (dispatch1 0 k x ev).2 = [].
Proof.
  unfold dispatch1. destruct (negb _); [done|]. destruct (negb _); [done|]. destruct (_ && _); [done|]. destruct (fs_base _ _ _ _); [|done].
  destruct (strip _ _ _) as [y e]. cbn. by rewrite N.land_0_r.
Qed.
Definition harmless (m : mst) : Prop :=
  match m_q m with
  | QIdle => True
  | QFound _ w _ => ∃ k, set_kind (m_objs m) w = Some (0, k)
  | QEv _ _ _ e => e = 0
  | QRun _ e _ _ out => e = 0 ∧ out = []
  end.
Record silent (s : cls) : Prop := {
  sl_pc : x_pc s = XIdle; sl_call : m_call (x_m s) = None; sl_tab : m_tab (x_m s) = ∅; sl_inv : ∃ ph, inv (x_m s) ph; sl_q : harmless (x_m s) }.
Lemma silent_mstep s m : silent s → mstep (x_m s) m → m_tab m = m_tab (x_m s) ∧ m_sent m = m_sent (x_m s) ∧ (no_call (x_m s) m → harmless m).
Proof.
  intros [S1 S2 S3 [ph I] Q] Hm. unfold harmless in *. remember (x_m s) as m0 eqn:E. destruct Hm as [s0| | | | | | | | | | | | | | | |s0| | | | |]; try congruence; cbn;
    try (match goal with H : m_q _ = _ |- _ => rewrite H in Q; rewrite ?H end); try done.
  - split_and!; [unfold m_begin, m_swap; destruct c; repeat (case_match; cbn; try done)|apply begin_sent|].
    intros Hn. rewrite (begin_no_call _ c S2 Hn). done.
  - exfalso. by eapply (dead_pend s0 ph).
  - split_and!; [done..|]. intros _. destruct Q as [k Q]. unfold set_kind in Q. rewrite H0 in Q. cbn in Q. congruence.
  - split_and!; [done..|]. intros _. destruct Q as [-> _]. split; [done|]. apply dispatch1_zero.
  - by destruct Q.
Qed.
Lemma silent_step s l s' : silent s → xstep s l s' → l ≠ ACall → l ≠ AClose → silent s' ∧ l = ARun ∧ m_sent (x_m s') = m_sent (x_m s) ∧ x_panic s' = x_panic s.
Proof.
  intros S Hs H1 H2. destruct Hs as [m Hp Hm Hn Hb|m Hp Hx Hm Hn Hb|m Hp Hm Hn Hb|order Hp Hx Hc Ho|w l o Hp Hx Ho Hr|w l o r x Hp Hx Ho Hr Hos
    |w l o Hp Hx Ho|w l o Hp Hx Ho|w l o Hp Hx Ho|Hp Hx|Hp Hx Hch|Hp Hx Hch]; try done; try (pose proof (sl_pc _ S); congruence).
  - destruct (silent_mstep s m S Hm) as (Et&Es&Hq). destruct S as [S1 S2 S3 [ph I] Q]. split_and!; try done. destruct (step_inv _ _ _ I Hm) as (ph'&I'&_). pose proof Hn as [N1 _].
    split; cbn; try done; [congruence|congruence|by exists ph'|by apply Hq].
  - destruct (silent_mstep s m S Hm) as (Et&Es&_). destruct Hb as [[_ H]|[_ H]]; by destruct H.
Qed.
Lemma silent_steps s tr s' : silent s → xsteps s tr s' → nobody_calls tr → silent s' ∧ Forall (λ l, l = ARun) tr ∧ m_sent (x_m s') = m_sent (x_m s) ∧ x_panic s' = x_panic s.
Proof.
  intros S Hs. induction Hs as [|s tr s1 l s2 _ IH H]; intros [H1 H2]; [split_and!; [done|by apply Forall_nil_2|done|done]|].
  apply not_elem_of_app in H1 as [A1 A2]. apply not_elem_of_app in H2 as [B1 B2]. destruct (IH S (conj A1 B1)) as (S1&F&E1&E2).
  destruct (silent_step _ _ _ S1 H) as (S2&->&E3&E4); [intros ->; apply A2; by left|intros ->; apply B2; by left|].
  split_and!; [done| |congruence|congruence]. apply Forall_app. split; [done|]. apply Forall_cons_2; [done|apply Forall_nil_2].
Qed.

(** A callback with something to send is stuck. *)
Record stuck (w e : N) (k : bool) (evs : list fsevent) (x : fsevent * N) (out : list (fsevent * N)) (s : cls) : Prop := {
  st_pc : x_pc s = XIdle; st_chan : x_chan s = true; st_nil : x_nil s = true; st_call : m_call (x_m s) = None; st_tab : m_tab (x_m s) = ∅; st_q : m_q (x_m s) = QRun w e k evs (x :: out) }.
Lemma stuck_step w e k evs x out s l s' : stuck w e k evs x out s → xstep s l s' → l ≠ ACall → l ≠ AClose →
  stuck w e k evs x out s' ∧ m_sent (x_m s') = m_sent (x_m s) ∧ l = if x_panic s' then APanic else ARun.
Proof.
  intros S Hs H1 H2. destruct S as [S1 S2 S3 S4 S5 S6]. destruct Hs as [m Hp Hm Hn Hb|m Hp Hx Hm Hn Hb|m Hp Hm Hn Hb|order Hp Hx Hc Ho|w' l o Hp Hx Ho Hr|w' l o r x' Hp Hx Ho Hr Hos
    |w' l o Hp Hx Ho|w' l o Hp Hx Ho|w' l o Hp Hx Ho|Hp Hx|Hp Hx Hch|Hp Hx Hch]; try done; try congruence.
  destruct (run_same _ _ Hm Hn) as [Et _]. pose proof Hn as [N1 _].
  assert (m_sent m = m_sent (x_m s)) as Es.
  { assert (∀ v y, m_sent m ≠ m_sent (x_m s) ++ [(v, y)]) as Hns. { intros v y Em. apply Hb. right. split; [done|]. rewrite Em. intros Q. by destruct (snoc_neq _ _ Q). }
    clear Hb Hn N1 Et. destruct Hm; try done; [apply begin_sent|]. by edestruct Hns. }
  cbn. split_and!; [|done|by rewrite Hp]. split; cbn; try done; [congruence|congruence|].
  clear Hb. remember (x_m s) as m0 eqn:E. destruct Hm; try congruence; try done.
  - rewrite begin_q. done.
  - cbn in Es. by destruct (snoc_neq _ _ Es).
Qed.

(** Calls after Close. *)
Definition fails (new : list (wcall * option fserr)) : Prop := Forall (λ x, x.2 ≠ None) new.
Lemma begin_empty m c : m_tab m = ∅ → (m_call (m_begin m c) = None → m_call m = None → m_log (m_begin m c) = m_log m ∨ ∃ e, m_log (m_begin m c) = m_log m ++ [(c, Some e)]) ∧
  (m_log (m_begin m c) = m_log m ∨ ∃ e, m_log (m_begin m c) = m_log m ++ [(c, Some e)]).
Proof.
  intros Ht. assert (m_log (m_begin m c) = m_log m ∨ ∃ e, m_log (m_begin m c) = m_log m ++ [(c, Some e)]) as H; [|by split].
  unfold m_begin, m_swap. rewrite Ht. destruct c; repeat (case_match; cbn; try (by left); try (right; by eexists)); done.
Qed.
Lemma nil_call m m' ph : inv m ph → m_tab m = ∅ → mstep m m' → m_tab m' = m_tab m → ∃ new, m_log m' = m_log m ++ new ∧ fails new.
Proof.
  intros I Ht Hm Et. pose proof (i_pc _ _ I) as Hpc. unfold pc_ok in Hpc.
  assert (∀ l, l = m_log m → ∃ new, l = m_log m ++ new ∧ fails new) as Hsame. { intros l ->. exists []. split; [by rewrite app_nil_r|apply Forall_nil_2]. }
  assert (∀ c e, ∃ new, m_log m ++ [(c, Some e)] = m_log m ++ new ∧ fails new) as Herr. { intros c e. exists [(c, Some e)]. split; [done|]. apply Forall_cons_2; [done|apply Forall_nil_2]. }
  destruct Hm; try (by apply Hsame); try (by apply Herr); try (match goal with H : m_call _ = _ |- _ => rewrite H in Hpc end; destruct Hpc as (Hpc&_); by rewrite Ht, lookup_empty in Hpc).
  - destruct (begin_empty s c Ht) as [_ [E|[e E]]]; rewrite E; [by apply Hsame|apply Herr].
  - cbn in Et. rewrite Ht in Et. by apply insert_non_empty in Et.
  - rewrite H in Hpc. destruct Hpc as ([p Hpc]&_). by rewrite Ht, lookup_empty in Hpc.
Qed.
Lemma nil_step s l s' : xinv s → x_nil s = true → xstep s l s' → x_nil s' = true ∧ ∃ new, m_log (x_m s') = m_log (x_m s) ++ new ∧ fails new.
Proof.
  intros [Hnil Hpc] Hn Hs. specialize (Hnil Hn).
  assert (∀ l, l = m_log (x_m s) → ∃ new, l = m_log (x_m s) ++ new ∧ fails new) as Hsame. { intros k ->. exists []. split; [by rewrite app_nil_r|apply Forall_nil_2]. }
  destruct Hs as [m Hp Hm Hnc Hb|m Hp Hx Hm Hnc Hb|m Hp Hm Hnc Hb|order Hp Hx Hc Ho|w l o Hp Hx Ho Hr|w l o r x Hp Hx Ho Hr Hos
    |w l o Hp Hx Ho|w l o Hp Hx Ho|w l o Hp Hx Ho|Hp Hx|Hp Hx Hch|Hp Hx Hch]; cbn; (split; [done|]); try (by apply Hsame).
  - apply Hsame. by destruct Hnc.
  - rewrite Hx in Hpc. destruct Hpc as [ph I]. eapply nil_call; [done..|]. destruct (decide (m_tab m = m_tab (x_m s))); [done|]. destruct Hb. by left.
Qed.
Lemma nil_steps s tr s' : xinv s → x_nil s = true → xsteps s tr s' → x_nil s' = true ∧ ∃ new, m_log (x_m s') = m_log (x_m s) ++ new ∧ fails new.
Proof.
  intros I Hn Hs. induction Hs as [s|s tr s1 l s2 Hs IH H]; [split; [done|]; exists []; split; [by rewrite app_nil_r|apply Forall_nil_2]|].
  destruct (IH I Hn) as (N1&new&E1&F1). pose proof (xinv_steps _ _ _ I Hs) as I1. destruct (nil_step _ _ _ I1 N1 H) as (N2&new2&E2&F2).
  split; [done|]. exists (new ++ new2). rewrite E2, E1, app_assoc. split; [done|]. by apply Forall_app.
Qed.
Lemma chan_steps s tr s' : x_chan s = true → xsteps s tr s' → x_chan s' = true ∧ AShut ∉ tr.
Proof.
  intros Hc Hs. induction Hs as [|s tr s1 l s2 _ IH H]; [split; [done|]; apply not_elem_of_nil|]. destruct (IH Hc) as [H1 H2].
  split; [destruct H; cbn; congruence|]. apply not_elem_of_app. split; [done|]. intros E%elem_of_list_singleton. destruct H; try discriminate E. congruence.
Qed.

(** ** Close returns *)
Definition work (pc : xpc) : nat :=
  match pc with XIdle => 0 | XChan => 1 | XLoop l => 4 * length l + 2 | XUnreg _ l => 4 * length l + 5 | XEv _ l => 4 * length l + 4 | XRec _ l => 4 * length l + 3 end.
Definition has_obj (s : cls) : Prop := match x_pc s with XEv w _ | XRec w _ => is_Some (set_kind (m_objs (x_m s)) w) | _ => True end.
Record cinv (s : cls) : Prop := { ci_x : xinv s; ci_obj : has_obj s; ci_chan : x_chan s = false; ci_panic : x_panic s = false; ci_pc : x_pc s ≠ XIdle }.
Lemma cinv_step s l s' : cinv s → xstep s l s' → l ≠ AShut → cinv s' ∧ l ≠ APanic ∧ (work (x_pc s') + (if decide (l = ARun) then 0 else 1) ≤ work (x_pc s))%nat.
Proof.
  intros [I O Hc Hp Hpc] Hs Hl. pose proof (xinv_step _ _ _ I Hs) as I'. destruct Hs as [m _ Hm Hn Hb|m _ Hx Hm Hn Hb|m _ Hm Hn Hb|order _ Hx Hca Ho|w l o _ Hx Ho Hr|w l o r x _ Hx Ho Hr Hos
    |w l o _ Hx Ho|w l o _ Hx Ho|w l o _ Hx Ho|_ Hx|_ Hx Hch|_ Hx Hch]; try congruence; try done; cbn [x_pc x_with].
  - destruct (run_same _ _ Hm Hn) as [_ Ek]. rewrite decide_True by done. split_and!; [|done|lia]. split; try done. unfold has_obj in *. cbn. destruct (x_pc s); try done; by rewrite Ek.
  - destruct (run_same _ _ Hm (Hn Hpc)) as [Et _]. destruct Hb as [[_ H]|[H _]]; congruence.
  - rewrite Hx. split_and!; [|done|cbn [work length]; rewrite decide_False by done; lia]. split; try done. unfold has_obj. cbn. unfold set_kind. rewrite Ho. by eexists.
  - rewrite Hx. split_and!; [|done|cbn [work length]; rewrite decide_False by done; lia]. by split.
  - rewrite Hx. split_and!; [|done|cbn [work length]; rewrite decide_False by done; lia]. split; try done. unfold has_obj. cbn. unfold set_kind. rewrite Ho. by eexists.
  - rewrite Hx. split_and!; [|done|cbn [work length]; rewrite decide_False by done; lia]. split; try done. unfold has_obj. cbn. unfold set_kind. rewrite lookup_insert. by eexists.
  - rewrite Hx. split_and!; [|done|cbn [work length]; rewrite decide_False by done; lia]. by split.
  - rewrite Hx. split_and!; [|done|cbn [work length]; rewrite decide_False by done; lia]. by split.
Qed.
Lemma cinv_steps s tr s' : cinv s → xsteps s tr s' → AShut ∉ tr →
  cinv s' ∧ APanic ∉ tr ∧ (work (x_pc s') + length (filter (λ l, l ≠ ARun) tr) ≤ work (x_pc s))%nat.
Proof.
  intros I Hs. induction Hs as [s|s tr s1 l s2 _ IH H]; intros Hn; [split_and!; [done|apply not_elem_of_nil|rewrite filter_nil; cbn; lia]|].
  apply not_elem_of_app in Hn as [H1 H2]. destruct (IH I H1) as (I1&P1&W1). destruct (cinv_step _ _ _ I1 H) as (I2&P2&W2); [intros ->; apply H2; by left|].
  split_and!; [done| |].
  - apply not_elem_of_app. split; [done|]. intros E%elem_of_list_singleton. by subst.
  - rewrite filter_app, app_length. destruct (decide (l = ARun)) as [->|Hne].
    + rewrite filter_cons_False by (intros Q; by apply Q). rewrite filter_nil. cbn. lia.
    + rewrite filter_cons_True by done. rewrite filter_nil. cbn. lia.
Qed.
Lemma set_kind_obj (m : gmap N wobj) w : is_Some (set_kind m w) → ∃ o, m !! w = Some o.
Proof. unfold set_kind. intros [x H]. destruct (m !! w) as [o|]; [by exists o|done]. Qed.
Lemma cinv_next s : cinv s → ∃ l s2, xstep s l s2 ∧ (l = ATau ∨ l = ADone ∨ l = AShut).
Proof.
  intros [[_ I] O Hc Hp Hpc]. unfold has_obj in O. destruct (x_pc s) as [|l|w l|w l|w l|] eqn:E; [done|..].
  - destruct l as [|w l]; [eexists _, _; split; [by apply x_done|auto]|]. destruct I as (Hca&ph&t&I&R1&R2&R3). destruct (R3 w) as [p Ht]; [by left|].
    destruct (begin_tab _ _ p w I eq_refl Ht) as [r Hph]. destruct (proj1 (i_dom _ _ I w)) as [o Ho]; [by eexists|]. pose proof (i_ref _ _ I w o p r Ho Hph) as Er.
    destruct (i_str _ _ I w o _ r Ho Hph eq_refl) as (x&Hx&_). unfold K in Ho. rewrite lookup_fmap in Ho. change (m_objs (shift (x_m s) t None)) with (m_objs (x_m s)) in Ho.
    destruct (m_objs (x_m s) !! w) as [o'|] eqn:Eo; [|done]. injection Ho as <-. eexists _, _. split; [by eapply x_stop|auto].
  - destruct I as (Hca&ph&t&p&I&_). pose proof (i_pc _ _ I) as Hok. cbn in Hok. destruct Hok as (_&Hph&_). destruct (proj1 (i_dom _ _ I w)) as [o Ho]; [by eexists|].
    unfold K in Ho. rewrite lookup_fmap in Ho. change (m_objs (shift (x_m s) t (Some (WUnwatch p, CUnreg p w None)))) with (m_objs (x_m s)) in Ho.
    destruct (m_objs (x_m s) !! w) as [o'|] eqn:Eo; [|done]. eexists _, _. split; [by eapply x_unreg|auto].
  - destruct (set_kind_obj _ _ O) as [o Ho]. eexists _, _. split; [by eapply x_ev|auto].
  - destruct (set_kind_obj _ _ O) as [o Ho]. eexists _, _. split; [by eapply x_rec|auto].
  - eexists _, _. split; [by apply x_shut|auto].
Qed.
