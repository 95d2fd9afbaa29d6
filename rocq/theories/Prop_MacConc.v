(** * C69: macOS: calls and callbacks run at the same time *)
From Verif Require Import Base Event Paths PathsFacts Node SpecOS Fsev SpecFsev FsevFacts MacConc SpecMacConc MacConcFacts.
Local Open Scope N_scope.

(** ** Whatever the schedule, a watch sends what it would send alone *)
(** What watch [w] has sent is what a watch without concurrency sends when it is given
    the same batches in the same order, each with the set and the kind loaded for it; at
    most the end is still missing, while a callback is running. *)
Theorem C69_history s w o : mreach s → m_objs s !! w = Some o →
  ∃ rest, (fs_hist (fresh_watch (fw_path (o_w o)) 0 false) (as_history (begun_by s w))).2 = sent_by s w ++ rest ∧
    (¬ q_on (m_q s) w → rest = []).
Proof.
  intros Hr Ho. destruct (reach_hinv s Hr) as (_&_&H). destruct (H w o Ho) as (l&H1&H2&H3).
  rewrite fs_hist_run. cbn [fresh_watch fw_events fw_isrec]. rewrite items_history, H1. unfold fs_run at 1. rewrite foldl_app.
  change (foldl _ (fresh_watch (fw_path (o_w o)) 0 false, []) l) with (fs_run (fresh_watch (fw_path (o_w o)) 0 false) l).
  destruct (fs_run (fresh_watch _ 0 false) l) as [y out] eqn:E. cbn [snd] in H3. rewrite fs_run_acc. cbn [snd]. rewrite H3, <-app_assoc.
  eexists. split; [done|]. intros Hq. destruct (m_q s) as [| | |v e k evs z]; try done. cbn in *. by rewrite !decide_False.
Qed.
(** The batches come from the stream that was started for the path of the watch. *)
Theorem C69_own_reports s r w b : mreach s → (r, w, b) ∈ m_begun s →
  ∃ x o, m_os s !! r = Some x ∧ m_objs s !! w = Some o ∧ os_path x = fw_path (o_w o).
Proof.
  intros Hr Hb. destruct (reach_inv s Hr) as [ph I]. apply (i_begun _ _ I) in Hb as (x&k&H1&H2&H3).
  pose proof H1 as (w'&k'&G1&G2&G3)%(i_os _ _ I). assert (w' = w) as -> by (eapply (i_inj _ _ I); [done..|congruence]).
  unfold K in H2, G1. rewrite lookup_fmap in H2, G1. destruct (m_objs s !! w) as [o|]; [|done]. injection H2 as <-. injection G1 as <-.
  exists x, o. split_and!; done.
Qed.
(** No batch of a watch in the table is dropped: when it is its turn, the function of that
    watch is found. *)
Theorem C69_found s p w o r x evs l : mreach s → m_call s = None → m_tab s !! p = Some w → m_objs s !! w = Some o → o_ref o = Some r →
  m_q s = QIdle → m_pend s = (r, evs) :: l → evs ≠ [] → m_os s !! r = Some x → mstep s (set_q (set_pend s l) (QFound r w evs)).
Proof.
  intros Hr Hc Ht Ho Href Hq Hp Hne Hx. destruct (reach_inv s Hr) as [ph I]. eapply ms_pop; try done.
  destruct (begin_tab s ph p w I Hc Ht) as [r' Hph]. pose proof (K_lookup _ _ _ Ho) as HK.
  pose proof (i_ref _ _ I w _ p r' HK Hph) as E. cbn in E. assert (r' = r) as -> by congruence.
  destruct (i_str _ _ I w _ (PTab p r) r HK Hph eq_refl) as (x'&H1&H2). assert (x' = x) as -> by congruence. rewrite H2.
  by eapply (i_reg2 _ _ I).
Qed.

(** ** The calls have the results and the effects they have without streams *)
Theorem C69_calls s : mreach s → m_call s = None → ∃ m, seq_run (m_log s) m ∧ view s = fs_os m.
Proof. intros Hr Hc. destruct (reach_seq s Hr) as (m&Hm&Hp). exists m. split; [done|]. unfold pend_ok in Hp. by rewrite Hc in Hp. Qed.

(** ** After Unwatch *)
(** Once a watch is out of the table, and unless a callback for it is running at that
    moment, it never sends anything again. *)
Theorem C69_quiet s w s' : mreach s → gone s w → ¬ q_on (m_q s) w → msteps s s' → sent_by s' w = sent_by s w.
Proof. intros Hr Hg Hq Hs. destruct (reach_inv s Hr) as [ph I]. destruct (gone_dead _ _ _ I Hg) as (h&Hh&Hd). by eapply dead_steps. Qed.

(** ** After Rewatch *)
(** Between two calls, every callback that has not yet loaded the set and the kind of a
    watch works with those that the last call left there. *)
Theorem C69_rewatch s p w e k s' : mreach s → m_call s = None → m_tab s !! p = Some w → view s !! p = Some (e, k) →
  ¬ q_loading (m_q s) w → msteps s s' → m_call s' = None → m_log s' = m_log s →
  ∃ new, m_begun s' = m_begun s ++ new ∧ ∀ r e' k' evs, (r, w, (e', k', evs)) ∈ new → e' = e ∧ k' = k.
Proof.
  intros _ Hc Ht Hv Hq Hs Hc' Hl.
  assert (set_kind (m_objs s) w = Some (e, k)) as Hk. { rewrite view_lookup, Ht in Hv. exact Hv. }
  assert (∀ r evs e', m_q s = QEv r w evs e' → e' = e) as Hq'. { intros r evs e' E. rewrite E in Hq. by destruct Hq. }
  assert (meas s = meas s') as Hm. { unfold meas. by rewrite Hc, Hc', Hl. }
  clear Ht Hv Hq Hl. induction Hs as [s|s s1 s2 H1 H2 IH].
  - exists []. rewrite app_nil_r. split; [done|]. by intros ???? ?%elem_of_nil.
  - pose proof (steps_meas _ _ H2). pose proof (step_meas _ _ H1). assert (meas s = meas s1) as E1 by lia.
    destruct (quiet_step s s1) as [|(Q1&Q2&Q3)]; [done..|lia|].
    destruct (begun_step s s1 w e k) as (B1&new1&B2&B3); try done.
    destruct IH as (new2&B4&B5); try done; [by rewrite Q3|lia|].
    exists (new1 ++ new2). split; [by rewrite B4, B2, app_assoc|]. intros r e' k' evs [H'|H']%elem_of_app; eauto.
Qed.

(** ** The table of stream functions *)
(** If no stream failed to start, the table holds exactly the functions of the watches. *)
Theorem C69_registry s i : mreach s → m_call s = None → (∀ c, (c, Some ErrStart) ∉ m_log s) →
  is_Some (m_reg s !! i) ↔ ∃ p w o, m_tab s !! p = Some w ∧ m_objs s !! w = Some o ∧ o_info o = i.
Proof.
  intros Hr Hc Hno. destruct (reach_inv s Hr) as [ph I]. split.
  - intros [w Hw]. apply (i_reg _ _ I) in Hw as (k&h&H1&H2&H3&H4). unfold K in H1. rewrite lookup_fmap in H1.
    destruct (m_objs s !! w) as [o|] eqn:Eo; [|done]. injection H1 as <-.
    pose proof (i_pc _ _ I) as Hpc. unfold pc_ok in Hpc. rewrite Hc in Hpc. specialize (Hpc w h H3).
    destruct h as [| | |p r| | | |]; simpl in Hpc, H4; try tauto.
    + exists p, w, o. split_and!; try done. apply (i_tab _ _ I). by eexists.
    + destruct (i_fail _ _ I w H3) as [c Hin]. by destruct (Hno c).
  - intros (p&w&o&H1&H2&<-). destruct (begin_tab s ph p w I Hc H1) as [r Hph]. exists w.
    apply (i_reg2 _ _ I w (erase o) (PTab p r)); [by apply K_lookup|done|done].
Qed.

(** ** Examples: running the steps *)
Inductive lab := LBegin (c : wcall) | LNew (w : N) | LFail | LCreate (r : N) | LCall | LFeed (r : N) (evs : list fsevent) | LQueue.
Definition exec (s : mst) (l : lab) : mst :=
  match l with
  | LBegin c => if m_call s then s else m_begin s c
  | LNew w => match m_call s with
      | Some (c, CNew p e k) => if m_objs s !! w then s else
          goto (set_reg (set_cnt (set_objs s (<[w := WObj (FWatch ∅ p e k false) None (m_cnt s + 1)]> (m_objs s)))
                                 (m_cnt s + 1)) (<[m_cnt s + 1 := w]> (m_reg s))) c (CCreate p w)
      | _ => s end
  | LFail => match m_call s with Some (c, CCreate p w) => ret s c (Some ErrStart) | _ => s end
  | LCreate r => match m_call s with
      | Some (c, CCreate p w) =>
          match m_objs s !! w, m_os s !! r with
          | Some o, None => goto (set_os s (<[r := OSStream (o_info o) p (m_since s) false]> (m_os s))) c (CStart p w r)
          | _, _ => s end
      | _ => s end
  | LCall => match m_call s with
      | Some (c, CStart p w r) => match m_os s !! r with Some o => goto (set_os s (<[r := running o]> (m_os s))) c (CIns p w r) | None => s end
      | Some (c, CIns p w r) => match m_objs s !! w with
          | Some o => ret (set_tab (set_objs s (<[w := set_ref o (Some r)]> (m_objs s))) (<[p := w]> (m_tab s))) c None | None => s end
      | Some (c, CStop p w cont) => match m_objs s !! w with
          | Some o => match o_ref o with
              | Some r => match m_os s !! r with
                  | Some x => goto (set_objs (set_os s (<[r := stopped x]> (m_os s))) (<[w := set_ref o None]> (m_objs s))) c (CUnreg p w cont)
                  | None => s end
              | None => s end
          | None => s end
      | Some (c, CUnreg p w cont) => match m_objs s !! w with
          | Some o => goto (set_reg s (delete (o_info o) (m_reg s))) c (CDel p w cont) | None => s end
      | Some (c, CDel p w None) => ret (set_tab s (delete p (m_tab s))) c None
      | Some (c, CRec w k) => match m_objs s !! w with Some o => ret (set_objs s (<[w := set_rec o k]> (m_objs s))) c None | None => s end
      | _ => s end
  | LFeed r evs => match m_os s !! r with Some x => if os_run x then set_pend s (m_pend s ++ [(r, evs)]) else s | None => s end
  | LQueue => match m_q s with
      | QIdle => match m_pend s with
          | (r, ev :: evs) :: l => match m_os s !! r with
              | Some x => match m_reg s !! os_info x with Some w => set_q (set_pend s l) (QFound r w (ev :: evs)) | None => set_pend s l end
              | None => s end
          | _ => s end
      | QFound r w evs => match m_objs s !! w with
          | Some o => set_q (set_since s (m_since s)) (QEv r w (gostream evs) (fw_events (o_w o))) | None => s end
      | QEv r w evs e => match m_objs s !! w with
          | Some o => set_begun (set_q s (QRun w e (fw_isrec (o_w o)) evs [])) (m_begun s ++ [(r, w, (e, fw_isrec (o_w o), evs))]) | None => s end
      | QRun w e k (ev :: evs) [] => match m_objs s !! w with
          | Some o => set_q (set_objs s (<[w := WObj (dispatch1 e k (o_w o) ev).1 (o_ref o) (o_info o)]> (m_objs s)))
                     (QRun w e k evs (dispatch1 e k (o_w o) ev).2) | None => s end
      | QRun w e k evs (x :: out) => set_sent (set_q s (QRun w e k evs out)) (m_sent s ++ [(w, x)])
      | QRun w e k [] [] => set_q s QIdle
      end
  end.
Lemma exec_step s l : mstep s (exec s l) ∨ exec s l = s.
Proof.
  destruct l; cbn [exec].
  - destruct (m_call s) eqn:E; [by right|left; by constructor].
  - destruct (m_call s) as [[c []]|] eqn:E; try (by right). destruct (m_objs s !! w) eqn:Ew; [by right|]. left. by constructor.
  - destruct (m_call s) as [[c []]|] eqn:E; try (by right). left. by econstructor.
  - destruct (m_call s) as [[c []]|] eqn:E; try (by right). destruct (m_objs s !! w) eqn:Ew; [|by right].
    destruct (m_os s !! r) eqn:Er; [by right|]. left. by econstructor.
  - destruct (m_call s) as [[c pc]|] eqn:E; try (by right). destruct pc as [| |p w r|p w r|p w cont|p w cont|p w [[q e]|]|w k]; try (by right).
    + destruct (m_os s !! r) eqn:Er; [|by right]. left. by econstructor.
    + destruct (m_objs s !! w) eqn:Er; [|by right]. left. by econstructor.
    + destruct (m_objs s !! w) as [o|] eqn:Er; [|by right]. destruct (o_ref o) as [r|] eqn:Ef; [|by right].
      destruct (m_os s !! r) eqn:Es; [|by right]. left. by econstructor.
    + destruct (m_objs s !! w) eqn:Er; [|by right]. left. by econstructor.
    + left. by econstructor.
    + destruct (m_objs s !! w) eqn:Er; [|by right]. left. by econstructor.
  - destruct (m_os s !! r) as [x|] eqn:Er; [|by right]. destruct (os_run x) eqn:Ex; [|by right]. left. by econstructor.
  - destruct (m_q s) as [|r w evs|r w evs e|w e k evs out] eqn:Eq.
    + destruct (m_pend s) as [|[r [|ev evs]] l] eqn:Ep; [by right..|]. destruct (m_os s !! r) as [x|] eqn:Er; [|by right].
      destruct (m_reg s !! os_info x) eqn:Ex; left; by econstructor.
    + destruct (m_objs s !! w) eqn:Er; [|by right]. left. econstructor; [done|done|by left].
    + destruct (m_objs s !! w) eqn:Er; [|by right]. left. by econstructor.
    + destruct out as [|x out], evs as [|ev evs].
      * left. by econstructor.
      * destruct (m_objs s !! w) eqn:Er; [|by right]. left. by econstructor.
      * left. by econstructor.
      * left. by econstructor.
Qed.
Definition execs (s : mst) (l : list lab) : mst := foldl exec s l.
Lemma execs_steps l : ∀ s, msteps s (execs s l).
Proof.
  induction l as [|x l IH]; intros s; [apply rtc_refl|]. unfold execs. cbn [foldl]. destruct (exec_step s x) as [H|H].
  - eapply rtc_l; [done|]. apply IH.
  - rewrite H. apply IH.
Qed.
Lemma steps_reach s s' : mreach s → msteps s s' → mreach s'.
Proof. intros Hr Hs. induction Hs as [|s s1 s2 H _ IH]; [done|]. apply IH. by eapply mr_step. Qed.
Lemma execs_reach l : mreach (execs (mst0 0) l).
Proof. eapply steps_reach; [apply mr_init|apply execs_steps]. Qed.

Definition pa : str := bytes_of "/a".
Definition pdeep : str := bytes_of "/a/d/f".
Definition pf : str := bytes_of "/a/f".
Definition done_marker : fsevent := FSEvent (bytes_of "/") 1 FSEventsHistoryDone.
Definition watch_labs (c : wcall) (w r : N) : list lab := [LBegin c; LNew w; LCreate r; LCall; LCall].
(** A recursive watch, past the history. *)
Definition start_labs : list lab :=
  watch_labs (WRecWatch pa FSEventsCreated) 1 1 ++ [LFeed 1 [done_marker]] ++ replicate 5 LQueue.
Definition late_labs : list lab :=
  start_labs ++ [LFeed 1 [FSEvent pf 2 FSEventsCreated]] ++ replicate 3 LQueue ++ [LBegin (WRecUnwatch pa); LCall; LCall; LCall].
(** Beside the theorems: a watch that has been called with two batches and sends something. *)
Theorem C69_hyps : ∃ s o, mreach s ∧ m_call s = None ∧ m_tab s !! pa = Some 1 ∧ m_objs s !! 1 = Some o ∧ fw_path (o_w o) = pa ∧
  m_q s = QIdle ∧ begun_by s 1 = [(FSEventsCreated, true, [done_marker]); (FSEventsCreated, true, [FSEvent pf 2 FSEventsCreated])] ∧
  sent_by s 1 = [(FSEvent pf 2 FSEventsCreated, FSEventsCreated)] ∧ m_log s = [(WRecWatch pa FSEventsCreated, None)].
Proof.
  set (l := start_labs ++ [LFeed 1 [FSEvent pf 2 FSEventsCreated]] ++ replicate 6 LQueue).
  destruct (m_objs (execs (mst0 0) l) !! 1) as [o|] eqn:E; [|by vm_compute in E].
  exists (execs (mst0 0) l), o. split; [apply execs_reach|]. split; [by vm_compute|]. split; [by vm_compute|]. split; [done|].
  split; [|split_and!; by vm_compute].
  assert ((fw_path ∘ o_w <$> m_objs (execs (mst0 0) l) !! 1) = Some pa) as H by (by vm_compute). rewrite E in H. by injection H.
Qed.
(** A callback that is running when Unwatch is called sends after Unwatch has returned. *)
Theorem C69_late_refuted : ∃ s s', mreach s ∧ m_call s = None ∧ m_tab s = ∅ ∧ last (m_log s) = Some (WRecUnwatch pa, None) ∧ m_sent s = [] ∧
  msteps s s' ∧ m_log s' = m_log s ∧ m_sent s' = [(1, (FSEvent pf 2 FSEventsCreated, FSEventsCreated))].
Proof.
  exists (execs (mst0 0) late_labs), (execs (execs (mst0 0) late_labs) (replicate 3 LQueue)).
  split; [apply execs_reach|]. split; [by vm_compute|]. split; [apply (bool_decide_unpack _); by vm_compute|].
  split; [by vm_compute|]. split; [by vm_compute|]. split; [apply execs_steps|]. split; by vm_compute.
Qed.
(** Rewatch stores the set and the kind one after the other: a callback between the two
    sends what neither the old nor the new registration covers (the old one is recursive
    for Created, the new one is not and asks for Modified; the file is two levels down). *)
Theorem C69_torn_refuted : ∃ s, mreach s ∧ m_log s = [(WRecWatch pa FSEventsCreated, None); (WRewatch pa FSEventsCreated FSEventsModified, None)] ∧
  m_sent s = [(1, (FSEvent pdeep 2 FSEventsModified, FSEventsModified))].
Proof.
  set (l := start_labs ++ [LFeed 1 [FSEvent pdeep 2 FSEventsModified]; LBegin (WRewatch pa FSEventsCreated FSEventsModified)] ++
            replicate 5 LQueue ++ [LCall]).
  exists (execs (mst0 0) l). split; [apply execs_reach|]. split; by vm_compute.
Qed.

(** ** Leaks *)
Lemma fail_once s p : mreach s → m_call s = None → m_tab s !! p = None → ∃ s', mreach s' ∧ m_call s' = None ∧ m_tab s' = m_tab s ∧
  size (m_reg s') = S (size (m_reg s)).
Proof.
  intros Hr Hc Ht. destruct (reach_inv s Hr) as [ph I].
  assert (m_reg s !! (m_cnt s + 1) = None) as Hreg.
  { destruct (m_reg s !! _) as [v|] eqn:E; [|done]. apply (i_reg _ _ I) in E as (o&h&H1&H2&_). apply (i_cnt _ _ I) in H1. lia. }
  set (w := fresh (dom (m_objs s))). assert (m_objs s !! w = None) as Hw. { apply not_elem_of_dom. apply is_fresh. }
  set (s1 := goto s (WWatch p 0) (CNew p 0 false)).
  assert (mstep s s1) as S1. { pose proof (ms_begin s (WWatch p 0) Hc) as H. cbn in H. by rewrite Ht in H. }
  pose proof (ms_new s1 (WWatch p 0) p 0 false w eq_refl Hw) as S2. set (s2 := goto _ _ (CCreate p w)) in S2.
  pose proof (ms_create_fail s2 (WWatch p 0) p w eq_refl) as S3.
  eexists. split; [eapply mr_step; [eapply mr_step; [eapply mr_step; [exact Hr|exact S1]|exact S2]|exact S3]|].
  split_and!; [done..|]. cbn. by rewrite map_size_insert_None.
Qed.
(** Every stream that cannot be started leaves its function in the table for good. *)
Theorem C69_leak_refuted n : ∃ s, mreach s ∧ m_call s = None ∧ m_tab s = ∅ ∧ size (m_reg s) = n.
Proof.
  induction n as [|n (s&H1&H2&H3&H4)]; [exists (mst0 0); split; [constructor|done]|].
  destruct (fail_once s [] H1 H2) as (s'&G1&G2&G3&G4); [by rewrite H3|]. exists s'. split_and!; try done; congruence.
Qed.

Lemma round_once s p : mreach s → m_call s = None → m_tab s !! p = None → ∃ s', mreach s' ∧ m_call s' = None ∧ m_tab s' = m_tab s ∧
  size (m_os s') = S (size (m_os s)) ∧ m_log s' = m_log s ++ [(WWatch p 0, None); (WUnwatch p, None)].
Proof.
  intros Hr Hc Ht.
  set (w := fresh (dom (m_objs s))). assert (m_objs s !! w = None) as Hw. { apply not_elem_of_dom. apply is_fresh. }
  set (r := fresh (dom (m_os s))). assert (m_os s !! r = None) as Hos. { apply not_elem_of_dom. apply is_fresh. }
  set (c := WWatch p 0).
  set (s1 := goto s c (CNew p 0 false)).
  assert (mreach s1) as R1. { eapply mr_step; [exact Hr|]. pose proof (ms_begin s c Hc) as H. cbn in H. by rewrite Ht in H. }
  pose proof (ms_new s1 c p 0 false w eq_refl Hw) as S2. set (s2 := goto _ _ (CCreate p w)) in S2.
  assert (mreach s2) as R2 by (by eapply mr_step).
  pose proof (ms_create s2 c p w _ r eq_refl (lookup_insert _ _ _) Hos) as S3. set (s3 := goto _ _ (CStart p w r)) in S3.
  assert (mreach s3) as R3 by (by eapply mr_step).
  pose proof (ms_start s3 c p w r _ eq_refl (lookup_insert _ _ _)) as S4. set (s4 := goto _ _ (CIns p w r)) in S4.
  assert (mreach s4) as R4 by (by eapply mr_step).
  pose proof (ms_ins s4 c p w r _ eq_refl (lookup_insert _ _ _)) as S5. set (s5 := ret _ c None) in S5.
  assert (mreach s5) as R5 by (by eapply mr_step).
  set (d := WUnwatch p). set (s6 := goto s5 d (CStop p w None)).
  assert (mreach s6) as R6.
  { eapply mr_step; [exact R5|]. pose proof (ms_begin s5 d eq_refl) as H. unfold d in H. cbn [m_begin] in H.
    assert (m_tab s5 !! p = Some w) as E by apply lookup_insert. by rewrite E in H. }
  pose proof (ms_stop s6 d p w None _ r _ eq_refl (lookup_insert _ _ _) eq_refl (lookup_insert _ _ _)) as S7. set (s7 := goto _ d (CUnreg p w None)) in S7.
  assert (mreach s7) as R7 by (by eapply mr_step).
  pose proof (ms_unreg s7 d p w None _ eq_refl (lookup_insert _ _ _)) as S8. set (s8 := goto _ d (CDel p w None)) in S8.
  assert (mreach s8) as R8 by (by eapply mr_step).
  pose proof (ms_del s8 d p w eq_refl) as S9. set (s9 := ret _ d None) in S9.
  exists s9. split; [by eapply mr_step|]. split; [done|]. split_and!.
  - cbn. by apply delete_insert.
  - cbn. rewrite !insert_insert. by rewrite map_size_insert_None.
  - cbn. by rewrite <-app_assoc.
Qed.
(** Streams are stopped and invalidated but never released: even if everything succeeds and
    every watch is removed again, their number grows without bound. *)
Theorem C69_release_refuted n : ∃ s, mreach s ∧ m_call s = None ∧ m_tab s = ∅ ∧ (∀ c e, (c, Some e) ∉ m_log s) ∧ size (m_os s) = n.
Proof.
  induction n as [|n (s&H1&H2&H3&H4&H5)].
  - exists (mst0 0). split; [constructor|]. split_and!; try done. intros c e H. by apply elem_of_nil in H.
  - destruct (round_once s [] H1 H2) as (s'&G1&G2&G3&G4&G5); [by rewrite H3|]. exists s'. split_and!; try done; try congruence.
    intros c e. rewrite G5. intros [H|H]%elem_of_app; [by eapply H4|].
    apply elem_of_cons in H as [H|H]; [done|]. by apply elem_of_list_singleton in H.
Qed.
