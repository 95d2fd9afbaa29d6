(** * Property theorems C68: macOS, from the reports of the OS to the channels *)
From Verif Require Import Base Event Watchpoint WatchpointFacts Paths PathsFacts Loop LoopFacts
  Node NodeFacts SpecTree WalkFacts RootFacts NonRec NonRecWp Rec SpecNonRec SpecNonRecOS NonRecDisp NonRecStop SpecOS SpecRec
  RecFacts RecReg RecStop RecDisp RecStep RecMask RecTidy RecCopy RecOS RecOrder RecOSStop NonRecRun RecRun RecORun Prop_Basics Prop_Rec Prop_RecOS
  Fsev SpecFsev FsevFacts Prop_Fsev SpecMac.
Local Open Scope N_scope.

Notation mpath := (rpath fslash false novol).
Notation mexec := (oexec fsevents fslash false novol).
Notation menv := (renv fsevents fslash false novol).
Notation asked := (asked fsevents).

Lemma mac_ok : platform_ok fsevents.
Proof. apply C56_constants. do 3 right. left. Qed.
Lemma log_legal_init log c ok : log_legal fsevents (log ++ [(c, ok)]) → log_legal fsevents log ∧ legal fsevents (os_watches log) c.
Proof.
  intros H. split; [|by apply (H log c ok [])]. intros l1 c' ok' l2 ->. apply (H l1 c' ok' (l2 ++ [(c, ok)])).
  by rewrite <-app_assoc.
Qed.
Lemma fs_dispatch_keeps x evs :
  fw_path (fs_dispatch x evs).1 = fw_path x ∧ fw_events (fs_dispatch x evs).1 = fw_events x ∧ fw_isrec (fs_dispatch x evs).1 = fw_isrec x.
Proof.
  rewrite fs_dispatch_run. split; [|apply fs_run_events].
  generalize (Item (fw_events x) (fw_isrec x) <$> evs). intros l. revert x. induction l as [|i l IH]; intros x; [done|].
  rewrite fs_run_cons. cbn [fst]. by rewrite IH, dispatch1_path.
Qed.
Definition keyed (m : fstab) : Prop := ∀ p x, m !! p = Some x → fw_path x = p.
Lemma keyed_insert m p x : keyed m → fw_path x = p → keyed (<[p := x]> m).
Proof. intros Hm Hx q y [[<- <-]|[Hne Hq]]%lookup_insert_Some; [done|by apply Hm]. Qed.
Lemma keyed_delete m p : keyed m → keyed (delete p m).
Proof. intros Hm q y [_ Hq]%lookup_delete_Some. by apply Hm. Qed.
Lemma fs_call_keyed m c : keyed m → keyed (fs_call (λ _, true) m c).1.
Proof.
  intros Hm.
  assert (∀ p e k, keyed (fs_watch (λ _, true) m p e k).1) as H1.
  { intros p e k. unfold fs_watch. destruct (m !! p); [done|]. by apply keyed_insert. }
  assert (∀ p, keyed (fs_unwatch m p).1) as H2.
  { intros p. unfold fs_unwatch. destruct (m !! p); [|done]. by apply keyed_delete. }
  destruct c as [p e|p|p old new|p e|p|p q old new]; cbn [fs_call]; auto.
  - unfold fs_rewatch. destruct (m !! p) as [x|] eqn:Hp; [|done]. destruct (_ =? _); [|done]. apply keyed_insert; [done|]. exact (Hm _ _ Hp).
  - unfold fs_recrewatch. case_bool_decide as Hpq.
    + destruct (m !! p) as [x|] eqn:Hp; [|done]. destruct (old =? new); [apply keyed_insert; [done|]; exact (Hm _ _ Hp)|].
      destruct (fw_events x =? old); [|done]. apply keyed_insert; [done|]. exact (Hm _ _ Hp).
    + destruct (m !! q) as [x|] eqn:Hq; [done|]. unfold fs_unwatch. destruct (m !! p); [|done]. unfold fs_watch.
      rewrite lookup_delete_ne, Hq by done. cbn [fst]. apply keyed_insert; [|done]. by apply keyed_delete.
Qed.
(** The table is what the calls ask for. *)
Lemma mac_inv log m : mac_run log m → log_legal fsevents log → fs_os m = os_watches log ∧ keyed m.
Proof.
  induction 1 as [|log m c m' err Hr IH Hc|log m p x evs Hr IH Hp]; intros Hl.
  - split; [apply fmap_empty|]. by intros p x H.
  - apply log_legal_init in Hl as [Hl Hc']. destruct (IH Hl) as [Ho Hk]. rewrite <-Ho in Hc'. split.
    + assert (err = None) as ->.
      { pose proof (C45_accepts fsevents (λ _, true) m c Hc' (λ _, eq_refl)) as H. by rewrite Hc in H. }
      rewrite bool_decide_true by done. unfold os_watches. rewrite foldl_app. cbn [foldl]. fold (os_watches log). rewrite <-Ho.
      by eapply C45_success.
    + pose proof (fs_call_keyed m c Hk) as H. by rewrite Hc in H.
  - destruct (IH Hl) as [Ho Hk]. destruct (fs_dispatch_keeps x (gostream evs)) as (K1&K2&K3). split.
    + unfold fs_os in *. rewrite fmap_insert, K2, K3, insert_id; [done|]. by rewrite lookup_fmap, Hp.
    + apply keyed_insert; [done|]. rewrite K1. by apply Hk.
Qed.
Lemma mpath_clean p : mpath p ↔ p ≠ [] ∧ clean p.
Proof. unfold rpath, clean. tauto. Qed.

Lemma created_kept prev set : prev ≠ FSEventsCreated → has set 8 → has (strip1 prev set).2 8.
Proof.
  intros Hp Hs. unfold strip1. apply N.eqb_neq in Hp. rewrite Hp.
  assert (∀ a, ¬ has a 8 → has (set .&^ a) 8) as Hk by (intros a Ha; apply has_ldiff; split; [exact Hs|exact Ha]).
  destruct (prev =? FSEventsRemoved); [cbn [snd]; apply Hk; by vm_compute|].
  destruct (set .& fs_both =? FSEventsCreated); [exact Hs|]. destruct (set .& fs_both =? FSEventsRemoved); [|exact Hs]. cbn [snd]. apply Hk; by vm_compute.
Qed.
Section sys.
Context (tr : list (nop * result)) (s : st) (m : fstab) (Hx : mexec tr s) (Hm : mac_run (st_log s) m).
Lemma sys_legal : log_legal fsevents (st_log s).
Proof. apply (oexec_sound fsevents mac_ok fslash false novol true) in Hx as (_&_&Hs). apply Hs. Qed.
Lemma sys_os : fs_os m = os_watches (st_log s) ∧ keyed m.
Proof. apply mac_inv; [done|apply sys_legal]. Qed.
Lemma sys_key p x : m !! p = Some x → ∃ q, mpath q ∧ p = render fslash q ∧ fw_path x = render fslash q ∧
  ∀ i, has (fw_events x) i → ¬ has (internal fsevents) i.
Proof.
  intros Hp. destruct sys_os as [Ho Hk].
  destruct (C32_covered_partial fsevents mac_ok fslash false novol tr s Hx) as [_ Hn].
  destruct (Hn p (fw_events x) (fw_isrec x)) as (q&Hq&->&Hi). { rewrite <-Ho. unfold fs_os. by rewrite lookup_fmap, Hp. }
  exists q. split_and!; [done|done|by apply Hk|]. intros i Hi'. by apply Hi.
Qed.
(** At most one watch is at or above a path. *)
Lemma sys_one p p' x x' q : mpath p → mpath p' → p `prefix_of` q → p' `prefix_of` q →
  m !! render fslash p = Some x → m !! render fslash p' = Some x' → p = p'.
Proof.
  intros Hp Hp' Hq Hq' H H'. destruct (decide (p = p')) as [|Hne]; [done|]. exfalso. destruct sys_os as [Ho _].
  pose proof (C35_orderly_partial fsevents mac_ok fslash false novol tr s Hx) as Hu. unfold unrelated in Hu. rewrite <-Ho in Hu.
  assert (∀ a x, m !! render fslash a = Some x → fs_os m !! nameof fslash false a ≠ None) as Hs.
  { intros a y Ha. unfold fs_os. cbn [nameof]. rewrite lookup_fmap, Ha. done. }
  destruct (prefix_weak_total p p' q Hq Hq') as [K|K].
  - destruct (Hu p p' Hp Hp') as [E|E]; [by split|by eapply Hs in E|by eapply Hs in E].
  - destruct (Hu p' p Hp' Hp) as [E|E]; [by split; [|congruence]|by eapply Hs in E|by eapply Hs in E].
Qed.

(** ** One report *)
Context (ev : fsevent) (d : path) (c : str) (Hrep : report ev d c).
Lemma rep_clean : clean (d ++ [c]).
Proof.
  destruct Hrep as (_&[H1 H2]&Hc&Hc'&_). split; [apply Forall_app; split; [done|by constructor]|].
  rewrite elem_of_app, elem_of_list_singleton. intros [H|H]; [done|by rewrite H in Hc].
Qed.
Lemma rep_flags a : a ∈ [FSEventsHistoryDone; fs_failure; FSEventsEventIdsWrapped] → fe_flags ev .& a = 0.
Proof.
  intros Ha. destruct Hrep as (_&_&_&_&_&_&H). apply land_zero_disj. apply land_zero_disj in H. intros i Hi Hi'.
  apply (H i Hi). rewrite !has_lor. repeat (apply elem_of_cons in Ha as [->|Ha]; [tauto|]). by apply elem_of_nil in Ha.
Qed.
Lemma rep_gostream : gostream [ev] = [ev].
Proof. unfold gostream. rewrite filter_cons_True; [done|]. apply rep_flags. right. right. left. Qed.
Lemma one_dispatch x : (fs_dispatch x [ev]).2 = (dispatch1 (fw_events x) (fw_isrec x) x ev).2.
Proof. unfold fs_dispatch. cbn [foldl]. by destruct (dispatch1 _ _ x ev) as [y o]. Qed.
Definition eff (x : fwatch) (r : path) : N := (strip1 (default 0 (fw_prev x !! tail (render fslash r))) (fe_flags ev)).2.
Definition scope (x : fwatch) (r : path) : Prop := fw_isrec x = true ∨ (length r ≤ 1)%nat.
Lemma watch_out p r x : clean p → d ++ [c] = p ++ r → fw_path x = render fslash p → ¬ (fw_flushed x = true ∧ scope x r) →
  (fs_dispatch x (gostream [ev])).2 = [].
Proof.
  intros Hp Hq Hxp Hn. rewrite rep_gostream, one_dispatch. unfold dispatch1. rewrite rep_flags by left. cbn [negb N.eqb].
  destruct (fw_flushed x) eqn:Hf; cbn [negb]; [|done]. rewrite (rep_flags fs_failure) by (right; left). cbn [negb N.eqb andb].
  assert (fe_path ev = render fslash (d ++ [c])) as -> by apply Hrep. rewrite Hxp.
  destruct (fs_base _ _ _ _) as [base|] eqn:Hb; [|done]. exfalso. apply fs_base_spec in Hb as (r'&Hr'&Hk&_); [|apply Hp|apply rep_clean].
  rewrite Hq in Hr'. apply app_inv_head in Hr' as <-. apply Hn. by split.
Qed.
Lemma watch_in p r x : clean p → d ++ [c] = p ++ r → fw_path x = render fslash p → fw_flushed x = true → scope x r →
  (fs_dispatch x (gostream [ev])).2 = (λ e, (ev, e)) <$> splitflags (eff x r .& fw_events x).
Proof.
  intros Hp Hq Hxp Hf Hs. rewrite rep_gostream, one_dispatch. unfold dispatch1. rewrite rep_flags by left. cbn [negb N.eqb].
  rewrite Hf. cbn [negb]. rewrite (rep_flags fs_failure) by (right; left). cbn [negb N.eqb andb].
  assert (fe_path ev = render fslash (d ++ [c])) as -> by apply Hrep. rewrite Hxp.
  rewrite (proj2 (fs_base_spec p (d ++ [c]) (fw_isrec x) (tail (render fslash r)) (proj1 Hp) (proj1 rep_clean))) by (by exists r).
  unfold strip, eff. destruct (strip1 _ _) as [v e]. cbn [snd]. destruct (N.eqb_spec (e .& fw_events x) 0) as [->|_]; [done|]. done.
Qed.
Lemma watch_away p x : clean p → ¬ p `prefix_of` (d ++ [c]) → fw_path x = render fslash p → (fs_dispatch x (gostream [ev])).2 = [].
Proof.
  intros Hp Hn Hxp. rewrite rep_gostream, one_dispatch. unfold dispatch1. destruct (negb _); [done|]. destruct (negb _); [done|].
  destruct (_ && _); [done|]. assert (fe_path ev = render fslash (d ++ [c])) as -> by apply Hrep. rewrite Hxp.
  destruct (fs_base _ _ _ _) as [base|] eqn:Hb; [|done]. exfalso. apply fs_base_spec in Hb as (r'&Hr'&_); [|apply Hp|apply rep_clean].
  apply Hn. by exists r'.
Qed.
Lemma bind_none {A B} (f : A → list B) l : (∀ a, a ∈ l → f a = []) → l ≫= f = [].
Proof.
  induction l as [|a l IH]; [done|]. intros H. cbn [mbind list_bind]. rewrite (H a) by left. apply IH. intros a' Ha. apply H. by right.
Qed.
Lemma bind_one {A B} (f : A → list B) l a : NoDup l → a ∈ l → (∀ a', a' ∈ l → a' ≠ a → f a' = []) → l ≫= f = f a.
Proof.
  induction 1 as [|a' l Ha' Hl IH]; [by intros ?%elem_of_nil|]. intros [->|Ha]%elem_of_cons H; cbn [mbind list_bind].
  - rewrite bind_none, app_nil_r; [done|]. intros a'' H'. apply H; [by right|]. by intros ->.
  - rewrite (H a'); [|left|by intros ->]. apply IH; [done|]. intros a'' H' Hne. apply H; [by right|done].
Qed.
(** All watches together send what the one at or above the file sends. *)
Lemma sends_one p r x : d ++ [c] = p ++ r → m !! render fslash p = Some x →
  mpath p ∧ fw_path x = render fslash p ∧ sends m ev = (fs_dispatch x (gostream [ev])).2.
Proof.
  intros Hq Hp. pose proof rep_clean as Hcl. assert (clean p) as Hcp.
  { rewrite Hq in Hcl. destruct Hcl as [H1 H2]. apply Forall_app in H1 as [H1 _]. split; [done|]. intros H. apply H2, elem_of_app. by left. }
  destruct (sys_key _ _ Hp) as (p'&Hp'&E&Hxp&_). apply (render_inj fslash) in E; [|apply Hcp|by apply mpath_clean in Hp' as [_ [? _]]].
  subst p'. split_and!; [done|done|]. unfold sends. rewrite (bind_one _ _ (render fslash p, x)); [done|apply NoDup_map_to_list|by apply elem_of_map_to_list|].
  intros [k y] Hk Hne. apply elem_of_map_to_list in Hk. cbn [snd]. destruct (sys_key _ _ Hk) as (p'&Hp''&->&Hyp&_).
  apply (watch_away p'); [by apply mpath_clean in Hp'' as [_ ?]| |done]. intros Hpre. apply Hne.
  assert (p' = p) as ->. { eapply sys_one; try done. by exists r. } rewrite Hk in Hp. by injection Hp as ->.
Qed.
Lemma sends_none : (∀ p r x, d ++ [c] = p ++ r → m !! render fslash p = Some x → False) → sends m ev = [].
Proof.
  intros H. unfold sends. apply bind_none. intros [k y] Hk. apply elem_of_map_to_list in Hk. cbn [snd].
  destruct (sys_key _ _ Hk) as (p'&Hp'&->&Hyp&_). apply (watch_away p'); [by apply mpath_clean in Hp' as [_ ?]| |done].
  intros [r Hr]. by apply (H p' r y).
Qed.
Lemma covering_dec : (∃ p r x, d ++ [c] = p ++ r ∧ m !! render fslash p = Some x) ∨ (∀ p r x, d ++ [c] = p ++ r → m !! render fslash p = Some x → False).
Proof.
  destruct (decide (Exists (λ k, is_Some (m !! render fslash (take k (d ++ [c])))) (seq 0 (S (length (d ++ [c])))))) as [H|H].
  - left. apply Exists_exists in H as (k&_&[x Hk]). exists (take k (d ++ [c])), (drop k (d ++ [c])), x. by rewrite take_drop.
  - right. intros p r x Hq Hp. apply H, Exists_exists. exists (length p). split; [apply elem_of_seq; rewrite Hq, app_length; lia|].
    rewrite Hq, take_app. eauto.
Qed.
Lemma flag_once j set : u32 set → filter (λ o, o.2 = 2 ^ j) ((λ e, (ev, e)) <$> splitflags set) = if decide (has set j) then [(ev, 2 ^ j)] else [].
Proof.
  intros Hu. destruct (splitflags_spec set Hu) as [Hin Hs%sorted_nodup]. pose proof (Hin (2 ^ j)) as Hj.
  assert (2 ^ j ∈ splitflags set ↔ has set j) as Hj'.
  { rewrite Hj. split; [|by exists j]. intros (j'&H1&H2). apply N.pow_inj_r in H2; [by subst|lia]. }
  clear Hj Hin. revert Hj' Hs. generalize (splitflags set). intros l. revert set Hu. 
  assert (∀ l : list N, NoDup l → filter (λ o : fsevent * N, o.2 = 2 ^ j) ((λ e, (ev, e)) <$> l) = if decide (2 ^ j ∈ l) then [(ev, 2 ^ j)] else []) as Hl.
  { clear l. induction 1 as [|e l He Hl IH]; [done|]. rewrite fmap_cons, filter_cons, IH. cbn [snd].
    destruct (decide (e = 2 ^ j)) as [->|Hne].
    - rewrite decide_False by done. rewrite decide_True by left. done.
    - destruct (decide (2 ^ j ∈ l)); [rewrite decide_True by (by right)|rewrite decide_False; [|intros [?|?]%elem_of_cons; congruence]]; done. }
  intros set _ Hj Hnd. rewrite Hl by done. destruct (decide (2 ^ j ∈ l)), (decide (has set j)); tauto.
Qed.
Lemma eff_u32 x r : u32 (eff x r .& fw_events x).
Proof.
  apply (incl_u32 _ (fe_flags ev)); [|by apply Hrep]. intros i [Hi _]%has_land. by apply strip1_incl in Hi.
Qed.
(** A channel that is to be offered flag [j] has made the OS watch the file for it. *)
Lemma covered n j : ¬ has (internal fsevents) j → (0 < deliveries fsevents (asked tr) n (2 ^ j) d c)%nat →
  ∃ p r x, d ++ [c] = p ++ r ∧ m !! render fslash p = Some x ∧ scope x r ∧ has (fw_events x) j.
Proof.
  intros Hj Hd. destruct (sys_os) as [Ho _]. destruct (C32_covered_partial fsevents mac_ok fslash false novol tr s Hx) as [Hcov _].
  rewrite <-Ho in Hcov.
  assert (∃ p r, d ++ [c] = p ++ r ∧ has (asked tr p n) j ∧ ((length r ≤ 1)%nat ∨ asked tr p n .& recursive fsevents ≠ 0)) as (p&r&Hq&Ha&Hr).
  { assert (∀ e q, gets (asked tr) n e q ≠ 0%nat → incl_ev e (asked tr q n)) as Hg.
    { intros e q. unfold gets. case_decide as H; [|done]. intros _ i Hi. rewrite <-H in Hi. by apply has_land in Hi as [_ ?]. }
    assert (has (2 ^ j) j) as Hjj by (apply N.pow2_bits_true).
    unfold deliveries in Hd. destruct (decide (gets (asked tr) n (2 ^ j) (d ++ [c]) = 0%nat)) as [E1|E1].
    - destruct (decide (gets (asked tr) n (2 ^ j) d = 0%nat)) as [E2|E2].
      + rewrite E1, E2 in Hd.
        assert (∃ k, gets (asked tr) n (2 ^ j .| recursive fsevents) (take k d) ≠ 0%nat) as [k Hk].
        { revert Hd. generalize (seq 0 (length d)). intros l. induction l as [|k l IH]; cbn [fmap list_fmap foldr]; [lia|].
          intros Hd. destruct (decide (gets (asked tr) n (2 ^ j .| recursive fsevents) (take k d) = 0%nat)) as [E|E]; [|by exists k].
          apply IH. rewrite E in Hd. exact Hd. }
        apply Hg in Hk. exists (take k d), (drop k d ++ [c]). rewrite app_assoc, take_drop. split_and!; [done|apply Hk, has_lor; by left|].
        right. intros E. apply land_zero_disj in E. destruct (proj1 (nonzero_bit (recursive fsevents)) ltac:(done)) as [i Hi].
        apply (E i); [apply Hk, has_lor; by right|done].
      + apply Hg in E2. exists d, [c]. split_and!; [done|by apply E2|left; cbn; lia].
    - apply Hg in E1. exists (d ++ [c]), []. rewrite app_nil_r. split_and!; [done|by apply E1|left; cbn; lia]. }
  destruct (Hcov p n) as (p'&e&k&Hp'&[r' ->]&Hl&Hi&Hk). { intros E. rewrite E in Ha. by apply has_0 in Ha. }
  cbn [nameof] in Hl. unfold fs_os in Hl. rewrite lookup_fmap in Hl. destruct (m !! render fslash p') as [x|] eqn:Hx'; [|done].
  injection Hl as <- <-. exists p', (r' ++ r), x. rewrite <-app_assoc in Hq. split_and!; [done|done| |].
  - unfold scope. destruct (fw_isrec x) eqn:Hisrec; [by left|right]. destruct (decide (p' = p' ++ r')) as [E|E].
    + assert (r' = []) as -> by (by apply (app_inv_head p'); rewrite app_nil_r). destruct Hr as [Hr|Hr]; [done|].
      discriminate Hk. right. by apply bool_decide_eq_true.
    + discriminate Hk. by left.
  - apply Hi. apply has_ldiff. by split.
Qed.
(** Each flag of a report that passes the watch is offered to every channel exactly as
    often as its registrations demand, and no other flag is offered. *)
Theorem C68_exact E n j : menv E → ¬ has (internal fsevents) j →
  (passes m (d ++ [c]) ev j → heard E s m ev n j = deliveries fsevents (asked tr) n (2 ^ j) d c) ∧
  (¬ passes m (d ++ [c]) ev j → heard E s m ev n j = 0%nat).
Proof.
  intros HE Hj. unfold heard. destruct covering_dec as [(p&r&x&Hq&Hp)|Hno].
  - destruct (sends_one p r x Hq Hp) as (Hmp&Hxp&->).
    assert (clean p) as Hcp by (by apply mpath_clean in Hmp as [_ ?]).
    assert (passes m (d ++ [c]) ev j ↔ fw_flushed x = true ∧ has (eff x r) j) as Hpass.
    { split.
      - intros (p'&r'&x'&Hq'&Hp'&Hf&He). destruct (sends_one p' r' x' Hq' Hp') as (Hmp'&_&_).
        assert (p' = p) as ->. { by apply (sys_one p' p x' x (d ++ [c])); try done; [exists r'|exists r]. }
        rewrite Hp in Hp'. injection Hp' as <-. rewrite Hq in Hq'. apply app_inv_head in Hq' as <-. done.
      - intros [Hf He]. by exists p, r, x. }
    rewrite Hpass. clear Hpass.
    destruct (decide (fw_flushed x = true ∧ scope x r)) as [[Hf Hs]|Hn].
    + rewrite (watch_in p r x) by done. rewrite flag_once by apply eff_u32. split.
      * intros [_ He]. destruct (decide (has (eff x r .& fw_events x) j)) as [Hj'|Hj'].
        -- cbn [fmap list_fmap foldr]. rewrite Nat.add_0_r. destruct (oexec_sound fsevents mac_ok fslash false novol true tr s Hx) as (Hrx&Hok&_).
           rewrite (C30_exact_delivery fsevents mac_ok ltac:(done) fslash false novol tr s E _ d c n Hrx Hok HE); [done| |by intros ?].
           destruct Hrep as (D1&D2&D3&D4&D5&_). split_and!; try done.
           ++ cbn. apply N.pow_nonzero. lia.
           ++ cbn. intros i Hi. assert (i = j) as ->; [|done]. unfold has in Hi. rewrite N.pow2_bits_eqb in Hi. symmetry. by apply N.eqb_eq.
           ++ by apply mpath_clean.
        -- cbn. symmetry. destruct (decide (deliveries fsevents (asked tr) n (2 ^ j) d c = 0%nat)) as [|Hd]; [done|]. exfalso.
           destruct (covered n j Hj ltac:(lia)) as (p'&r'&x'&Hq'&Hp'&_&He'). destruct (sends_one p' r' x' Hq' Hp') as (Hmp'&_&_).
           assert (p' = p) as ->. { by apply (sys_one p' p x' x (d ++ [c])); try done; [exists r'|exists r]. }
           rewrite Hp in Hp'. injection Hp' as <-. apply Hj', has_land. done.
      * intros Hn. rewrite decide_False; [done|]. intros [He _]%has_land. by apply Hn.
    + rewrite (watch_out p r x) by done. cbn. split; [|done]. intros [Hf He]. symmetry.
      destruct (decide (deliveries fsevents (asked tr) n (2 ^ j) d c = 0%nat)) as [|Hd]; [done|]. exfalso.
      destruct (covered n j Hj ltac:(lia)) as (p'&r'&x'&Hq'&Hp'&Hs'&_). destruct (sends_one p' r' x' Hq' Hp') as (Hmp'&_&_).
      assert (p' = p) as ->. { by apply (sys_one p' p x' x (d ++ [c])); try done; [exists r'|exists r]. }
      rewrite Hp in Hp'. injection Hp' as <-. rewrite Hq in Hq'. apply app_inv_head in Hq' as <-. by apply Hn.
  - rewrite sends_none by done. cbn. split; [|done]. intros (p&r&x&Hq&Hp&_). by destruct (Hno p r x).
Qed.
(** In particular nothing is offered that is not in the report, and what is offered is
    asked for. *)
Theorem C68_nothing_else E n j : menv E → ¬ has (internal fsevents) j → heard E s m ev n j ≠ 0%nat →
  has (fe_flags ev) j ∧ (0 < deliveries fsevents (asked tr) n (2 ^ j) d c)%nat.
Proof.
  intros HE Hj Hh. destruct (C68_exact E n j HE Hj) as [H1 H2].
  destruct (decide (deliveries fsevents (asked tr) n (2 ^ j) d c = 0%nat)) as [E0|E0]; [|split; [|lia]].
  - exfalso. apply Hh, H2. intros Hp. apply Hh. by rewrite H1.
  - destruct (decide (has (fe_flags ev) j)) as [|Hn]; [done|]. exfalso. apply Hh, H2. intros (p&r&x&_&_&_&He).
    by apply strip1_incl in He.
Qed.
(** Flags other than the four of the heuristics: offered by every watch past its history. *)
Theorem C68_delivered E n j : menv E → ¬ has (internal fsevents) j →
  (∀ p x, m !! p = Some x → fw_flushed x = true) → has (fe_flags ev) j →
  ¬ has (FSEventsCreated .| FSEventsRemoved .| FSEventsModified .| FSEventsInodeMetaMod) j →
  heard E s m ev n j = deliveries fsevents (asked tr) n (2 ^ j) d c.
Proof.
  intros HE Hj Hf Hev Hh. destruct (C68_exact E n j HE Hj) as [H1 H2].
  destruct (decide (deliveries fsevents (asked tr) n (2 ^ j) d c = 0%nat)) as [E0|E0].
  - destruct (decide (heard E s m ev n j = 0%nat)) as [->|Hn]; [done|]. destruct (C68_nothing_else E n j HE Hj Hn) as [_ ?]. lia.
  - apply H1. destruct (covered n j Hj ltac:(lia)) as (p&r&x&Hq&Hp&_). exists p, r, x. split_and!; [done|done|by eapply Hf|].
    apply strip1_keeps; [done|]. intros K. apply Hh. clear -K. unfold fs_both, fs_write in K. rewrite !has_lor in *. tauto.
Qed.
(** Created is offered unless the watch remembers that the file was last created. *)
Theorem C68_created E n : menv E →
  (∀ p x, m !! p = Some x → fw_flushed x = true) → has (fe_flags ev) 8 →
  (∀ p r x, d ++ [c] = p ++ r → m !! render fslash p = Some x → fw_prev x !! tail (render fslash r) ≠ Some FSEventsCreated) →
  heard E s m ev n 8 = deliveries fsevents (asked tr) n FSEventsCreated d c.
Proof.
  intros HE Hf Hev Hprev. assert (¬ has (internal fsevents) 8) as Hj by (by vm_compute). destruct (C68_exact E n 8 HE Hj) as [H1 H2].
  change (2 ^ 8) with FSEventsCreated in *.
  destruct (decide (deliveries fsevents (asked tr) n FSEventsCreated d c = 0%nat)) as [E0|E0].
  - destruct (decide (heard E s m ev n 8 = 0%nat)) as [->|Hn]; [done|]. destruct (C68_nothing_else E n 8 HE Hj Hn) as [_ ?].
    change (2 ^ 8) with FSEventsCreated in *. lia.
  - apply H1. destruct (covered n 8 Hj ltac:(change (2 ^ 8) with FSEventsCreated; lia)) as (p&r&x&Hq&Hp&_). exists p, r, x. split_and!; [done|done|by eapply Hf|].
    specialize (Hprev p r x Hq Hp). apply created_kept; [|done]. destruct (fw_prev x !! tail (render fslash r)) as [v|]; [|done].
    intros Ev. apply Hprev. f_equal. exact Ev.
Qed.
End sys.

(** ** Instances *)
Local Ltac ops := repeat (apply Forall_cons; split; [split; [apply menv_ok|apply L_obliging]|]); by apply Forall_nil.
(** Replaying calls, and handing the history marker to every stream. *)
Definition replay (m : fstab) (l : wlog) : fstab := foldl (λ m x, (fs_call (λ _, true) m x.1).1) m l.
Fixpoint agrees (m : fstab) (l : wlog) : bool :=
  match l with
  | [] => true
  | x :: l => Bool.eqb x.2 (bool_decide ((fs_call (λ _, true) m x.1).2 = None)) && agrees (fs_call (λ _, true) m x.1).1 l
  end.
Lemma replay_run l : ∀ log m, mac_run log m → agrees m l = true → mac_run (log ++ l) (replay m l).
Proof.
  induction l as [|[c r] l IH]; intros log m Hr Ha; [by rewrite app_nil_r|]. cbn [agrees fst snd] in Ha. apply andb_true_iff in Ha as [H1 H2].
  apply eqb_prop in H1. rewrite (cons_middle (c, r)), (app_assoc log). cbn [replay foldl]. apply (IH (log ++ [(c, r)])); [|exact H2].
  subst r. eapply mr_call; [exact Hr|]. cbn [fst]. by destruct (fs_call _ m c).
Qed.
Lemma replay_init l : agrees ∅ l = true → mac_run l (replay ∅ l).
Proof. intros H. apply (replay_run l [] ∅); [constructor|done]. Qed.
Definition mark : fsevent := FSEvent [] 0 FSEventsHistoryDone.
Definition flush (m : fstab) (keys : list str) : fstab :=
  foldl (λ m p, match m !! p with Some x => <[p := (fs_dispatch x (gostream [mark])).1]> m | None => m end) m keys.
Lemma flush_run log keys : ∀ m, mac_run log m → mac_run log (flush m keys).
Proof.
  induction keys as [|p keys IH]; intros m Hm; [done|]. cbn [flush foldl]. apply IH. destruct (m !! p) as [x|] eqn:Hp; [|done]. by eapply mr_batch.
Qed.
Lemma replay_flush l keys : agrees ∅ l = true → mac_run l (flush (replay ∅ l) keys).
Proof. intros H. by apply flush_run, replay_init. Qed.
Lemma opsO_exec : mexec (trace_of opsO) (at_end opsO).
Proof. apply oexec_ex. Qed.
Definition macO : fstab := flush (replay ∅ (st_log (at_end opsO))) [b "/a"; b "/d"].
Definition evO : fsevent := FSEvent (b "/a/b/c/f") 1 (FSEventsCreated .| FSEventsModified .| FSEventsRenamed).
Lemma macO_run : mac_run (st_log (at_end opsO)) macO.
Proof.
  unfold macO. apply replay_flush. by vm_compute.
Qed.
Lemma evO_report : report evO (pth "a/b/c") (b "f").
Proof.
  split_and!; try (by vm_compute); [split; apply (bool_decide_unpack _); by vm_compute|].
  apply (bool_decide_unpack _). by vm_compute.
Qed.
(** Channel 2 asked recursively for Remove in /a/b/c and, not recursively, for Write in
    /a/b; channel 3 for Create and Rename in /a/e. *)
Example C68_hyps :
  mexec (trace_of opsO) (at_end opsO) ∧ mac_run (st_log (at_end opsO)) macO ∧ report evO (pth "a/b/c") (b "f") ∧
  menv L ∧ (∀ p x, macO !! p = Some x → fw_flushed x = true) ∧
  (heard L (at_end opsO) macO evO 2 12, heard L (at_end opsO) macO evO 3 8) = (0%nat, 0%nat) ∧
  heard L (at_end opsO) macO (FSEvent (b "/a/e/f") 1 (FSEventsCreated .| FSEventsModified)) 3 8 = 1%nat ∧
  heard L (at_end opsO) macO (FSEvent (b "/a/b/c/f") 1 FSEventsRemoved) 2 9 = 1%nat.
Proof.
  split_and!; [apply opsO_exec|apply macO_run|apply evO_report|apply menv_ok| |by vm_compute..].
  assert (map_Forall (λ _ x, fw_flushed x = true) macO) as H by (apply (bool_decide_unpack _); by vm_compute).
  intros p x Hp. by apply (H p x).
Qed.
(** A watch that is replaced by one above it starts again before the history marker:
    channel 1 asked for Create in /a/b and had its stream past the history; after channel
    2 watched /a, files created in /a/b are not reported until the new marker comes. *)
Definition opsH : list (env * nop) := [(L, NWatch (pth "a/b") true 1 C); (L, NWatch (pth "a") true 2 W)].
Definition macH1 : fstab := flush (replay ∅ (st_log (at_end (take 1 opsH)))) [b "/a/b"].
Definition macH2 : fstab := replay macH1 (drop 1 (st_log (at_end opsH))).
Definition evH : fsevent := FSEvent (b "/a/b/f") 1 FSEventsCreated.
Theorem C68_moved_refuted :
  (mexec (trace_of (take 1 opsH)) (at_end (take 1 opsH)) ∧ mac_run (st_log (at_end (take 1 opsH))) macH1 ∧
   heard L (at_end (take 1 opsH)) macH1 evH 1 8 = 1%nat) ∧
  mexec (trace_of opsH) (at_end opsH) ∧ mac_run (st_log (at_end opsH)) macH2 ∧ report evH (pth "a/b") (b "f") ∧
  deliveries fsevents (asked (trace_of opsH)) 1 FSEventsCreated (pth "a/b") (b "f") = 1%nat ∧
  heard L (at_end opsH) macH2 evH 1 8 = 0%nat.
Proof.
  assert (mac_run (st_log (at_end (take 1 opsH))) macH1) as H1.
  { unfold macH1. apply replay_flush. by vm_compute. }
  assert (mac_run (st_log (at_end opsH)) macH2) as H2.
  { assert (st_log (at_end opsH) = st_log (at_end (take 1 opsH)) ++ drop 1 (st_log (at_end opsH))) as -> by (by vm_compute).
    unfold macH2. apply replay_run; [exact H1|by vm_compute]. }
  split_and!; [apply (orun_oexec fsevents slash false); [ops|by vm_compute]|exact H1|by vm_compute|
    apply (orun_oexec fsevents slash false); [ops|by vm_compute]|exact H2| |by vm_compute|by vm_compute].
  split_and!; try (by vm_compute); [split; apply (bool_decide_unpack _); by vm_compute|].
  apply (bool_decide_unpack _). by vm_compute.
Qed.

Print Assumptions C68_exact.
Print Assumptions C68_nothing_else.
Print Assumptions C68_delivered.
Print Assumptions C68_created.
Print Assumptions C68_hyps.
Print Assumptions C68_moved_refuted.
