(** * Prop_MacClose: closing the tree on macOS *)
From Verif Require Import Base Event Paths PathsFacts Node SpecOS Fsev SpecFsev FsevFacts MacConc SpecMacConc MacConcFacts MacClose SpecMacClose MacCloseFacts.
From Verif Require Prop_MacConc.
Local Open Scope N_scope.

(** When Close returns no stream is running, the table is empty, every watch that was in it has
    an empty event set, and the only functions still registered are those of streams that
    could not be started. *)
Theorem C84_released s0 s : closes s0 s →
  ¬ stream_runs s ∧ m_tab (x_m s) = ∅ ∧
  (∀ p w o, m_tab (x_m s0) !! p = Some w → m_objs (x_m s) !! w = Some o → fw_events (o_w o) = 0) ∧
  ((∀ c, (c, Some ErrStart) ∉ m_log (x_m s)) → m_reg (x_m s) = ∅).
Proof.
  intros H. destruct (closes_state _ _ H) as ([_ I]&Hpc&Hn&Hc&Hp&Hcall&Ht&Hz). rewrite Hpc in I. destruct I as [ph I]. split_and!; [|done| |].
  - intros (r&x&Hx&Hr). destruct (i_os _ _ I r x Hx) as (w&o&H1&H2&_). destruct (proj2 (i_dom _ _ I w)) as [h Hh]; [by eexists|].
    destruct (i_run _ _ I r x w o h) as [G _]; try done. apply G in Hr. destruct (all_dead _ _ _ _ I Hcall Ht Hh) as [-> | ->]; done.
  - intros p w o H1 H2. specialize (Hz p w H1). unfold zero, set_kind in Hz. rewrite H2 in Hz. cbn in Hz. congruence.
  - intros Hno. apply map_empty. intros i. destruct (m_reg (x_m s) !! i) as [w|] eqn:E; [|done]. apply (i_reg _ _ I) in E as (o&h&H1&H2&H3&H4).
    destruct (all_dead _ _ _ _ I Hcall Ht H3) as [-> | ->]; [|done]. destruct (i_fail _ _ I w H3) as [c Hc']. by destruct (Hno c).
Qed.
(** The first Close does not panic and returns: until it does there is always a step it can
    take, and it takes so many. *)
Theorem C84_returns since tr0 s0 s1 tr s' : xexec since tr0 s0 → x_chan s0 = false → xstep s0 AClose s1 → xsteps s1 tr s' → AShut ∉ tr →
  APanic ∉ tr ∧ (length (filter (λ l, l ≠ ARun) tr) ≤ 4 * size (m_tab (x_m s0)) + 1)%nat ∧
  ∃ l s2, xstep s' l s2 ∧ (l = ATau ∨ l = ADone ∨ l = AShut).
Proof.
  intros Hx Hch Hc Hs Hn. pose proof (xinv_step _ _ _ (xinv_exec _ _ _ Hx) Hc) as I1.
  assert (cinv s1 ∧ work (x_pc s1) = (4 * size (m_tab (x_m s0)) + 2)%nat) as [C1 W1].
  { remember AClose as l eqn:E. destruct Hc as [| | |order Hp Hxi Hcl Ho| | | | | | | |]; try discriminate E. split; [by split|]. cbn. rewrite Ho, fmap_length. cbn. unfold size, map_size. lia. }
  destruct (cinv_steps _ _ _ C1 Hs Hn) as (C2&P&W). split_and!; [done| |by apply cinv_next]. assert (1 ≤ work (x_pc s'))%nat; [|lia].
  pose proof (ci_pc _ C2). destruct (x_pc s'); cbn; try done; lia.
Qed.
(** If no callback is running when Close returns nothing is sent any more, and nothing panics,
    until somebody calls something. *)
Theorem C84_silent s0 s tr s' : closes s0 s → none_running s0 s → xsteps s tr s' → nobody_calls tr →
  m_sent (x_m s') = m_sent (x_m s) ∧ x_panic s' = false ∧ APanic ∉ tr.
Proof.
  intros H Hq Hs Hn. destruct (closes_state _ _ H) as ([_ I]&Hpc&_&_&Hp&Hcall&Ht&Hz). rewrite Hpc in I.
  destruct (silent_steps s tr s') as (_&F&E1&E2); [|done..|].
  - split; try done. unfold harmless. destruct Hq as [-> |(p&r&w&evs&->&Hw)]; [done|]. eexists. by eapply Hz.
  - split_and!; [done|congruence|]. intros Hin. rewrite Forall_forall in F. by discriminate (F _ Hin).
Qed.
(** But if a callback has something to send when Close returns, it never succeeds: the next
    thing the callback does is a panic. *)
Theorem C84_late_refuted s0 s w e k evs x out tr s' : closes s0 s → m_q (x_m s) = QRun w e k evs (x :: out) → xsteps s tr s' → nobody_calls tr →
  m_sent (x_m s') = m_sent (x_m s) ∧ m_q (x_m s') = m_q (x_m s) ∧ (x_panic s' = false → ∃ s2, xstep s' APanic s2 ∧ x_panic s2 = true).
Proof.
  intros H Hq Hs Hn. destruct (closes_state _ _ H) as (_&Hpc&Hnil&Hch&Hp&Hcall&Ht&_).
  assert (stuck w e k evs x out s) as S by done. cut (stuck w e k evs x out s' ∧ m_sent (x_m s') = m_sent (x_m s)).
  { intros [S' E]. split_and!; [done|by rewrite Hq, (st_q _ _ _ _ _ _ _ S')|]. intros Hp'. exists (Cls (x_m s') (x_nil s') (x_pc s') (x_chan s') true). split; [|done].
    apply (x_bad s' (set_sent (set_q (x_m s') (QRun w e k evs out)) (m_sent (x_m s') ++ [(w, x)]))); [done| |done|].
    - apply ms_send. by apply (st_q _ _ _ _ _ _ _ S').
    - right. split; [by apply (st_chan _ _ _ _ _ _ _ S')|]. cbn. intros Q. by destruct (snoc_neq _ _ Q). }
  clear H Hq Hpc Hnil Hch Hp Hcall Ht. induction Hs as [|s tr s1 l s2 _ IH Hl]; [done|]. destruct Hn as [H1 H2]. apply not_elem_of_app in H1 as [A1 A2]. apply not_elem_of_app in H2 as [B1 B2].
  destruct (IH (conj A1 B1) S) as [S1 E1]. destruct (stuck_step _ _ _ _ _ _ _ _ _ S1 Hl) as (S2&E2&_); [intros ->; apply A2; by left|intros ->; apply B2; by left|]. split; [done|congruence].
Qed.
(** After Close the watcher cannot be used: whatever is called, every call that returns fails,
    and a Watch that gets its stream started does not return: it panics. *)
Theorem C84_dead_refuted s0 s tr s' : closes s0 s → xsteps s tr s' →
  (∃ new, m_log (x_m s') = m_log (x_m s) ++ new ∧ Forall (λ r, r.2 ≠ None) new) ∧ m_tab (x_m s') = ∅ ∧
  (∀ c p w r, m_call (x_m s') = Some (c, CIns p w r) → x_pc s' = XIdle → x_panic s' = false →
     (∃ s2, xstep s' APanic s2) ∧ ∀ l s2, xstep s' l s2 → l = ARun ∨ l = APanic).
Proof.
  intros H Hs. destruct (closes_state _ _ H) as (I&_&Hnil&_&_&_&_&_). destruct (nil_steps _ _ _ I Hnil Hs) as (Hnil'&Hlog). pose proof (xinv_steps _ _ _ I Hs) as I'.
  assert (m_tab (x_m s') = ∅) as Ht by (by apply I'). split_and!; [done|done|]. intros c p w r Hc Hpc Hp. split.
  - destruct I' as [_ I']. rewrite Hpc in I'. destruct I' as [ph I']. pose proof (i_pc _ _ I') as Hok. unfold pc_ok in Hok. rewrite Hc in Hok. destruct Hok as (_&Hph&_).
    destruct (proj1 (i_dom _ _ I' w)) as [o Ho]; [by eexists|]. unfold K in Ho. rewrite lookup_fmap in Ho. destruct (m_objs (x_m s') !! w) as [o'|] eqn:Eo; [|done].
    eexists. apply (x_bad s' (ret (set_tab (set_objs (x_m s') (<[w := set_ref o' (Some r)]> (m_objs (x_m s')))) (<[p := w]> (m_tab (x_m s')))) c None)); [done| |done|].
    + by eapply ms_ins.
    + left. split; [done|]. cbn. rewrite Ht. apply insert_non_empty.
  - intros l s2 Hl. destruct Hl as [m Hp' Hm Hnc Hb|m Hp' Hx Hm Hnc Hb|m Hp' Hm Hnc Hb|order Hp' Hx Hc' Ho| | | | | | | |]; try congruence; [by left| |by right].
    exfalso. assert (m_tab m = m_tab (x_m s')) as Et. { destruct (decide (m_tab m = m_tab (x_m s'))); [done|]. destruct Hb. by left. }
    apply Hnc. clear Hb Hnc. destruct Hm; try congruence; try done. assert (p0 = p) as -> by congruence. cbn in Et. rewrite Ht in Et. by apply insert_non_empty in Et.
Qed.
(** Closing it again never returns: it panics. *)
Theorem C84_twice_refuted s0 s tr s' : closes s0 s → xsteps s tr s' →
  AShut ∉ tr ∧ (x_pc s' = XChan → x_panic s' = false → ∃ s2, xstep s' APanic s2 ∧ x_panic s2 = true).
Proof.
  intros H Hs. destruct (closes_state _ _ H) as (_&_&_&Hch&_). destruct (chan_steps _ _ _ Hch Hs) as [Hch' Hn]. split; [done|].
  intros Hpc Hp. exists (Cls (x_m s') (x_nil s') (x_pc s') (x_chan s') true). split; [by apply x_shut_bad|done].
Qed.

(** ** Examples: running the steps *)
Local Instance fsevent_dec : EqDecision fsevent. Proof. solve_decision. Defined.
Local Instance wcall_dec : EqDecision wcall. Proof. solve_decision. Defined.
Local Instance cpc_dec : EqDecision cpc. Proof. solve_decision. Defined.
Local Instance fserr_dec : EqDecision fserr. Proof. solve_decision. Defined.
Local Instance bad_dec s m : Decision (bad s m). Proof. unfold bad. apply _. Defined.
Local Instance no_call_dec m m' : Decision (no_call m m'). Proof. unfold no_call. apply _. Defined.
(** [Some l]: a step as in Prop_MacConc.v; [None]: a step of Close. *)
Definition xrun1 (s : cls) (l : option Prop_MacConc.lab) : cls :=
  if x_panic s then s else
  match l with
  | Some l =>
      let m := Prop_MacConc.exec (x_m s) l in
      if decide (no_call (x_m s) m) then
        if decide (bad s m) then Cls (x_m s) (x_nil s) (x_pc s) (x_chan s) true else x_with s m (x_pc s)
      else match x_pc s with XIdle => if decide (bad s m) then Cls (x_m s) (x_nil s) XIdle (x_chan s) true else x_with s m XIdle | _ => s end
  | None =>
      match x_pc s with
      | XIdle => match m_call (x_m s) with None => x_with s (x_m s) (XLoop (map_to_list (m_tab (x_m s))).*2) | Some _ => s end
      | XLoop (w :: l) =>
          match m_objs (x_m s) !! w with
          | Some o => match o_ref o with
              | Some r => match m_os (x_m s) !! r with
                  | Some x => x_with s (set_objs (set_os (x_m s) (<[r := stopped x]> (m_os (x_m s)))) (<[w := set_ref o None]> (m_objs (x_m s)))) (XUnreg w l)
                  | None => s end
              | None => s end
          | None => s end
      | XLoop [] => Cls (set_tab (x_m s) ∅) true XChan (x_chan s) false
      | XUnreg w l => match m_objs (x_m s) !! w with Some o => x_with s (set_reg (x_m s) (delete (o_info o) (m_reg (x_m s)))) (XEv w l) | None => s end
      | XEv w l => match m_objs (x_m s) !! w with Some o => x_with s (set_objs (x_m s) (<[w := set_ev o 0]> (m_objs (x_m s)))) (XRec w l) | None => s end
      | XRec w l => match m_objs (x_m s) !! w with Some o => x_with s (set_objs (x_m s) (<[w := set_rec o false]> (m_objs (x_m s)))) (XLoop l) | None => s end
      | XChan => if x_chan s then Cls (x_m s) (x_nil s) XChan (x_chan s) true else Cls (x_m s) (x_nil s) XIdle true false
      end
  end.
Definition lab_of (s : cls) (l : option Prop_MacConc.lab) : xlab :=
  if x_panic (xrun1 s l) then APanic else
  match l with
  | Some l => if decide (no_call (x_m s) (Prop_MacConc.exec (x_m s) l)) then ARun else ACall
  | None => match x_pc s with XIdle => AClose | XLoop [] => ADone | XChan => AShut | _ => ATau end
  end.
Lemma x_with_id s : x_with s (x_m s) (x_pc s) = s.
Proof. by destruct s. Qed.
Lemma xrun1_step s l : xstep s (lab_of s l) (xrun1 s l) ∨ xrun1 s l = s.
Proof.
  unfold lab_of. unfold xrun1. destruct (x_panic s) eqn:Ep; [by right|]. destruct l as [l|].
  - destruct (Prop_MacConc.exec_step (x_m s) l) as [H|H].
    + destruct (decide (no_call _ _)) as [Hn|Hn].
      * destruct (decide (bad _ _)) as [Hb|Hb]; cbn; [left; by eapply x_bad|]. rewrite Ep. left. by apply x_run.
      * destruct (x_pc s) eqn:Ex; try (by right). destruct (decide (bad _ _)) as [Hb|Hb]; cbn.
        -- left. rewrite <-Ex. eapply x_bad; [done..| |done]. by rewrite Ex.
        -- rewrite Ep. left. by apply x_call.
    + right. rewrite H. rewrite decide_True by done. destruct (decide (bad _ _)) as [Hb|Hb]; [by destruct Hb as [[_ []]|[_ []]]|]. apply x_with_id.
  - destruct (x_pc s) as [|[|w l]|w l|w l|w l|] eqn:Ex.
    + destruct (m_call _) eqn:Ec; [by right|]. cbn. rewrite Ep. left. by apply x_close.
    + left. cbn. by apply x_done.
    + destruct (m_objs _ !! w) as [o|] eqn:Eo; [|by right]. destruct (o_ref o) as [r|] eqn:Er; [|by right]. destruct (m_os _ !! r) as [x|] eqn:Es; [|by right].
      left. cbn. rewrite Ep. by eapply x_stop.
    + destruct (m_objs _ !! w) as [o|] eqn:Eo; [|by right]. left. cbn. rewrite Ep. by eapply x_unreg.
    + destruct (m_objs _ !! w) as [o|] eqn:Eo; [|by right]. left. cbn. rewrite Ep. by eapply x_ev.
    + destruct (m_objs _ !! w) as [o|] eqn:Eo; [|by right]. left. cbn. rewrite Ep. by eapply x_rec.
    + destruct (x_chan s) eqn:Ec; left; cbn; [|by apply x_shut]. pose proof (x_shut_bad s Ep Ex Ec) as G. by rewrite Ec, Ex in G.
Qed.
Fixpoint xruns (s : cls) (l : list (option Prop_MacConc.lab)) : cls := match l with [] => s | a :: l => xruns (xrun1 s a) l end.
Fixpoint labs_of (s : cls) (l : list (option Prop_MacConc.lab)) : list xlab := match l with [] => [] | a :: l => lab_of s a :: labs_of (xrun1 s a) l end.
Lemma xsteps_l s l s1 tr s2 : xstep s l s1 → xsteps s1 tr s2 → xsteps s (l :: tr) s2.
Proof. intros H Hs. induction Hs as [|s1 tr s2 a s3 _ IH Ha]; [by apply (xs_snoc _ [] s); [constructor|]|]. rewrite app_comm_cons. eapply xs_snoc; [by apply IH|done]. Qed.
Lemma xruns_steps l : ∀ s, ∃ tr, xsteps s tr (xruns s l) ∧ ∀ a, a ∈ tr → a ∈ labs_of s l.
Proof.
  induction l as [|a l IH]; intros s; [exists []; split; [constructor|]; by intros ??|]. cbn. destruct (IH (xrun1 s a)) as (tr&Hs&Ha).
  destruct (xrun1_step s a) as [H|H].
  - exists (lab_of s a :: tr). split; [by eapply xsteps_l|]. intros c [->|Hc]%elem_of_cons; [by left|right; by apply Ha].
  - exists tr. rewrite H in *. split; [done|]. intros c Hc. right. by apply Ha.
Qed.
Import Prop_MacConc.
Definition x0 (l : list lab) : cls := xruns (x_init 0) (Some <$> l).
Lemma x0_exec l : ∃ tr, xexec 0 tr (x0 l).
Proof. destruct (xruns_steps (Some <$> l) (x_init 0)) as (tr&H&_). by exists tr. Qed.
Lemma x0_closes l mid : x_pc (x0 l) = XIdle → x_panic (x0 l) = false → m_call (x_m (x0 l)) = None →
  AClose ∉ labs_of (xrun1 (x0 l) None) mid → AShut ∉ labs_of (xrun1 (x0 l) None) mid →
  x_pc (xruns (xrun1 (x0 l) None) mid) = XChan → x_chan (xruns (xrun1 (x0 l) None) mid) = false → x_panic (xruns (xrun1 (x0 l) None) mid) = false →
  closes (x0 l) (xrun1 (xruns (xrun1 (x0 l) None) mid) None).
Proof.
  intros H1 H2 H3 H4 H5 H6 H7 H8. destruct (x0_exec l) as [tr0 Hx]. destruct (xruns_steps mid (xrun1 (x0 l) None)) as (tr&Hs&Hin).
  exists 0, tr0, (xrun1 (x0 l) None), tr, (xruns (xrun1 (x0 l) None) mid). split_and!; [done| |done|intros Q; by apply H4, Hin|intros Q; by apply H5, Hin|].
  - unfold xrun1. rewrite H2, H1, H3. by apply x_close.
  - set (s := xruns _ mid) in *. unfold xrun1. rewrite H8, H6, H7. by apply x_shut.
Qed.
Definition busy_labs : list lab := start_labs ++ [LFeed 1 [FSEvent pf 2 FSEventsCreated]].
Definition mid : list (option lab) := replicate 5 None.
(** Nothing is running, but a callback is waiting in the queue. *)
Example C84_ex_silent : ∃ s0 s, closes s0 s ∧ none_running s0 s ∧ m_tab (x_m s0) !! pa = Some 1 ∧ length (m_pend (x_m s)) = 1%nat ∧
  x_pc (xrun1 s (Some LQueue)) = XIdle ∧ m_pend (x_m (xrun1 s (Some LQueue))) = [].
Proof.
  exists (x0 busy_labs), (xrun1 (xruns (xrun1 (x0 busy_labs) None) mid) None). split; [apply x0_closes; vm_compute; try done; repeat (apply not_elem_of_cons; split; [done|]); apply not_elem_of_nil|].
  split; [left; by vm_compute|]. split_and!; by vm_compute.
Qed.
(** Close is called while a callback is about to send: it panics. *)
Example C84_ex_late : ∃ s0 s x, closes s0 s ∧ m_q (x_m s) = QRun 1 FSEventsCreated true [] [x] ∧ x_panic s = false ∧ x_panic (xrun1 s (Some LQueue)) = true.
Proof.
  exists (x0 (busy_labs ++ replicate 4 LQueue)), (xrun1 (xruns (xrun1 (x0 (busy_labs ++ replicate 4 LQueue)) None) mid) None), (FSEvent pf 2 FSEventsCreated, FSEventsCreated).
  split; [apply x0_closes; vm_compute; try done; repeat (apply not_elem_of_cons; split; [done|]); apply not_elem_of_nil|]. split_and!; by vm_compute.
Qed.
(** A Watch after Close panics; a second Close panics. *)
Example C84_ex_again : ∃ s0 s, closes s0 s ∧
  x_panic (xruns s (Some <$> watch_labs (WWatch pa FSEventsCreated) 2 2)) = true ∧
  x_panic (xruns s [Some (LBegin (WUnwatch pa))]) = false ∧ last (m_log (x_m (xruns s [Some (LBegin (WUnwatch pa))]))) = Some (WUnwatch pa, Some ErrNotWatched) ∧
  x_panic (xruns s (replicate 3 None)) = true.
Proof.
  exists (x0 busy_labs), (xrun1 (xruns (xrun1 (x0 busy_labs) None) mid) None). split; [apply x0_closes; vm_compute; try done; repeat (apply not_elem_of_cons; split; [done|]); apply not_elem_of_nil|].
  split_and!; by vm_compute.
Qed.

Print Assumptions C84_released.
Print Assumptions C84_returns.
Print Assumptions C84_silent.
Print Assumptions C84_late_refuted.
Print Assumptions C84_dead_refuted.
Print Assumptions C84_twice_refuted.
