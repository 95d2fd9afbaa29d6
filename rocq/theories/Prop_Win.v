(** * Property theorems C71: Windows, from the records of the OS to the channels *)
From Verif Require Import Base Event Watchpoint WatchpointFacts Paths PathsFacts Loop LoopFacts
  Node NodeFacts SpecTree WalkFacts RootFacts NonRec NonRecWp Rec SpecNonRec SpecNonRecOS NonRecDisp NonRecStop SpecOS SpecRec
  RecFacts RecReg RecStop RecDisp RecStep RecMask RecTidy RecCopy RecOS RecOrder RecOSStop NonRecRun RecRun RecORun Prop_Basics Prop_Rec Prop_RecOS
  Readdcw SpecReaddcw ReaddcwFacts ReaddcwLoop ReaddcwLife ReaddcwRun Prop_Readdcw SpecWin.
Local Open Scope N_scope.

Notation wpath isvol := (rpath backslash true isvol).
Notation wexec isvol := (oexec readdcw backslash true isvol).
Notation winenv isvol := (renv readdcw backslash true isvol).
Notation asked := (SpecNonRec.asked readdcw).
Notation wname := (nameof backslash true).

(** ** The requests ask for what the tree's calls ask for *)
Lemma want_loop l : ∀ tr p, Forall loop_label l → want (tr ++ l) p = want tr p.
Proof.
  induction l as [|x l IH]; intros tr p Hl; [by rewrite app_nil_r|]. apply Forall_cons in Hl as [Hx Hl].
  rewrite cons_middle, app_assoc, IH by done. by apply want_other.
Qed.
Lemma os_watches_snoc log x : os_watches (log ++ [x]) = os_step (os_watches log) x.
Proof. unfold os_watches. by rewrite foldl_app. Qed.
Lemma wdrives_want log rtr : wdrives log rtr → ∀ p, want rtr p = os_watches log !! p.
Proof.
  induction 1 as [|log rtr l Hd IH Hl|log rtr c l Hd IH Hs]; intros x.
  - unfold os_watches. cbn [foldl]. by rewrite lookup_empty.
  - by rewrite want_other.
  - rewrite os_watches_snoc. destruct Hs as [p e a b|p e a b|p old new a b|p a b|p a b|p old new a b|p q old new a b l c d Hne Hl]; cbn [os_step];
      rewrite ?want_req; cbn [req_path].
    1-3: destruct (decide (x = p)) as [->|Hx]; [by rewrite lookup_insert|by rewrite lookup_insert_ne, IH].
    1-2: destruct (decide (x = p)) as [->|Hx]; [by rewrite lookup_delete|by rewrite lookup_delete_ne, IH].
    + destruct (decide (x = p)) as [->|Hx]; [by rewrite lookup_insert|by rewrite lookup_insert_ne, lookup_delete_ne, IH].
    + rewrite app_comm_cons, app_assoc, want_req. cbn [req_path].
      destruct (decide (x = q)) as [->|Hx]; [by rewrite lookup_insert|]. rewrite lookup_insert_ne by done.
      rewrite (cons_middle _ rtr l), app_assoc, want_loop, want_req by done. cbn [req_path].
      destruct (decide (x = p)) as [->|Hx']; [by rewrite lookup_delete|by rewrite lookup_delete_ne, IH].
Qed.

(** ** A handle of a directory at rest *)
Lemma handle_filter rtr rs p g isdir : rdorderly rtr rs → ¬ in_progress rs p → handle rs p g isdir →
  ∃ e k st, want rtr p = Some (e, k) ∧ requestable e ∧ incl_ev st onlyMachineStates ∧
    ∀ x, record_sent rs g x = send1 p (if isdir then e .| st .| dirmarker else (e .| st) .&^ FileNotifyChangeDirName) x.
Proof.
  intros Ho Hn (gr&wd&Hg&Hop&Hwd&P&Hd). pose proof (rdorderly_inv _ _ Ho) as J.
  destruct (rs_tab rs !! p) as [i|] eqn:Ht.
  2: { exfalso. destruct (ri_dead _ _ J _ _ Hwd) as (e&k&_&_&Hc&_); [by rewrite P, Ht|].
    destruct (ri_gr _ _ J g gr Hg) as (y&Y1&Y2). rewrite Hwd in Y1. injection Y1 as <-. destruct (decide (g ∈ grips_of wd)) as [Hin|Hin].
    - specialize (Hc g Hin). unfold closed in Hc. by rewrite Hg, Hop in Hc.
    - destruct (Y2 Hin). congruence. }
  destruct (at_rest _ _ _ _ J Hn Ht) as (x&Hx&Px&(e&r&W&S2&S3&S4&S5&(st&Hst&F1&F2)&S7&S8)). rewrite Px in W.
  assert (incl_ev st onlyMachineStates) as Hinc by (by apply st_incl).
  assert (g_parent gr = i) as Hi.
  { destruct (decide (g_parent gr = i)) as [|Hne]; [done|]. exfalso. destruct (ri_dead _ _ J _ _ Hwd) as (e'&k&_&_&Hc&_); [rewrite P, Ht; congruence|].
    destruct (ri_gr _ _ J g gr Hg) as (y&Y1&Y2). rewrite Hwd in Y1. injection Y1 as <-. destruct (decide (g ∈ grips_of wd)) as [Hgi|Hgi].
    - specialize (Hc g Hgi). unfold closed in Hc. by rewrite Hg, Hop in Hc.
    - destruct (Y2 Hgi). congruence. }
  assert (wd = x) as -> by congruence.
  assert (g ∈ grips_of x) as Hgi.
  { destruct (decide (g ∈ grips_of x)) as [|Hni]; [done|]. destruct (ri_gr _ _ J g gr Hg) as (y&Y1&Y2). rewrite Hwd in Y1. injection Y1 as <-.
    destruct (Y2 Hni). congruence. }
  exists e, r, st. split_and!; [done|done|done|]. intros y. unfold record_sent. rewrite Hg, Hwd, P. f_equal.
  unfold grips_of in Hgi. apply elem_of_app in Hgi as [K|K].
  - destruct (w_g0 x) as [h|]; cbn [ogrip] in K; [|by apply elem_of_nil in K]. apply elem_of_list_singleton in K as ->. destruct F1 as [_ F1]. rewrite Hg in F1.
    injection F1 as ->. cbn [g_filter] in *. rewrite bool_decide_false in Hd; [by subst|]. intros Hd'.
    assert ((e .| st) .&^ DN = (e .&^ DN) .| st) as E.
    { apply has_ext. intros k. rewrite has_lor, !has_ldiff, has_lor. assert (disj_ev onlyMachineStates DN) as K by (apply land_zero_disj; by vm_compute).
      split; [intros [[H1|H1] H2]; [by left|by right]|]. intros [[H1 H2]|H1]; [split; [by left|done]|]. split; [by right|]. intros H2. by apply (K k); [apply Hinc|]. }
    rewrite E in Hd'. assert (native_bit (e .&^ DN) 1) as (r0&f0&Hin&H1&H2).
    { apply (C46_requested (e .&^ DN) st); [intros k [Hk _]%has_ldiff; by apply S2|done|]. rewrite Hd'. by vm_compute. }
    apply nonzero_bit in H1 as [k [[_ H1]%has_ldiff H3]%has_land]. 
    unfold implied in Hin. repeat (apply elem_of_cons in Hin as [[= -> ->]|Hin]; [try (by vm_compute in H2); done|]). by apply elem_of_nil in Hin.
  - destruct (w_g1 x) as [h|]; cbn [ogrip] in K; [|by apply elem_of_nil in K]. apply elem_of_list_singleton in K as ->. destruct F2 as [_ F2]. rewrite Hg in F2.
    injection F2 as ->. cbn [g_filter] in *. rewrite bool_decide_true in Hd; [by subst|]. apply C46_directories, nonzero_bit. exists 26. rewrite has_land, has_lor. split; [by right|by vm_compute].
Qed.
(** What the loop sends for a completion is what it sends for each record of it. *)
Theorem C71_loop rs g l rs' : rdstep rs (LTake g l) rs' → rs_sent rs' = rs_sent rs ++ (l ≫= record_sent rs g).
Proof.
  intros H. inversion H; subst. cbn [set_pc set_sent rs_sent]. f_equal. unfold loopevent, record_sent.
  match goal with K : rs_grips rs !! g = _ |- _ => rewrite K end. match goal with K : rs_wds rs !! _ = _ |- _ => rewrite K end. done.
Qed.

(** ** The whole *)
Lemma win_ok : platform_ok readdcw.
Proof. apply readdcw_ok. Qed.
Lemma deliveries_pos P (g : path → positive → N) n ev d c : deliveries P g n ev d c ≠ 0%nat → ∃ q, q `prefix_of` (d ++ [c]) ∧ incl_ev ev (g q n).
Proof.
  assert (∀ e q, gets g n e q ≠ 0%nat → incl_ev e (g q n)) as Hg.
  { intros e q. unfold gets. case_decide as H; [|done]. intros _ i Hi. rewrite <-H in Hi. by apply has_land in Hi as [_ ?]. }
  intros Hd. unfold deliveries in Hd. destruct (decide (gets g n ev (d ++ [c]) = 0%nat)) as [E1|E1].
  - destruct (decide (gets g n ev d = 0%nat)) as [E2|E2].
    + rewrite E1, E2 in Hd.
      assert (∃ k, gets g n (ev .| recursive P) (take k d) ≠ 0%nat) as [k Hk].
      { revert Hd. generalize (seq 0 (length d)). intros l. induction l as [|k l IH]; cbn [fmap list_fmap foldr]; [lia|].
        intros Hd. destruct (decide (gets g n (ev .| recursive P) (take k d) = 0%nat)) as [E|E]; [|by exists k].
        apply IH. rewrite E in Hd. exact Hd. }
      apply Hg in Hk. exists (take k d). split; [exists (drop k d ++ [c]); by rewrite app_assoc, take_drop|]. intros i Hi. apply Hk, has_lor. by left.
    + exists d. split; [by exists [c]|by apply Hg].
  - exists (d ++ [c]). split; [done|by apply Hg].
Qed.

Definition sends_native (f : N) : bool :=
  let isdir := nonzero (f .& dirmarker) in
  (isdir && nonzero (f .& FileNotifyChangeDirName)) || (negb isdir && nonzero (f .& FileNotifyChangeFileName)) || nonzero (f .& fileNotifyChangeModified).
Lemma actions_apart a ge se : (a, (ge, se)) ∈ actions → ge ≠ 0 ∧ se ≠ 0 ∧ ge ≠ se.
Proof.
  unfold actions. rewrite !elem_of_cons. intros [[= -> -> ->]|[[= -> -> ->]|[[= -> -> ->]|[[= -> -> ->]|[[= -> -> ->]|H]]]]]; try (by vm_compute). by apply elem_of_nil in H.
Qed.
Lemma wheard_send E s join stat dir f a nm ge se n v : (a, (ge, se)) ∈ actions →
  wheard E s join stat (send1 dir f (FN a nm)) n v =
  let off x := rec_offered E s (rd_info join stat (RdEvent dir nm (rd_ftype f a) x)) (KUser n) in
  if decide (v = ge) then if nonzero (f .& ge) then off ge else 0%nat
  else if decide (v = se) then if sends_native f then off se else 0%nat else 0%nat.
Proof.
  intros Ha. destruct (actions_apart _ _ _ Ha) as (H1&H2&H3). unfold send1. rewrite (send1_gensys f (FN a nm) ge se Ha). unfold gensys. fold (sends_native f).
  cbv zeta. cbn [fn_action fn_name].
  assert ((ge =? 0) = false) as E1 by (by apply N.eqb_neq). assert ((se =? 0) = false) as E2 by (by apply N.eqb_neq).
  change (let isdir := nonzero (f .& dirmarker) in _) with (sends_native f).
  unfold wheard. destruct (nonzero (f .& ge)) eqn:Ege, (sends_native f) eqn:Ese; unfold sends_native in Ese; cbv zeta in Ese; rewrite ?Ese, ?E1, ?E2; cbn [andb negb N.eqb];
    rewrite ?filter_cons; cbn [re_e]; rewrite ?filter_nil;
    destruct (decide (v = ge)) as [->|Hg]; try (destruct (decide (v = se)) as [->|Hs]);
    repeat (first [rewrite decide_True by done|rewrite decide_False by congruence]); cbn [fmap list_fmap foldr]; lia.
Qed.

Section sys.
Context (isvol : str → Prop) (tr : list (nop * result)) (s : st) (rtr : list rlabel) (rs : rstate).
Context (Hx : wexec isvol tr s) (Hd : wdrives (st_log s) rtr) (Ho : rdorderly rtr rs).
(** Everything somebody asked for on the way to an entry is asked for at the directory
    watched there. *)
Lemma win_covered p e k q' n j q : wpath isvol p → p `prefix_of` q → q' `prefix_of` q →
  os_watches (st_log s) !! wname p = Some (e, k) → ¬ has (internal readdcw) j → has (asked tr q' n) j → has e j.
Proof.
  intros Hp Hpq Hq Hl Hj Ha. destruct (C32_covered_partial readdcw win_ok backslash true isvol tr s Hx) as [Hcov _].
  destruct (Hcov q' n) as (p'&e'&k'&Hp'&Hpre&Hl'&Hi&_). { intros E. rewrite E in Ha. by apply has_0 in Ha. }
  assert (has e' j) as He'. { apply Hi, has_ldiff. by split. }
  assert (p' `prefix_of` q) as Hpq' by (by trans q').
  pose proof (C35_orderly_partial readdcw win_ok backslash true isvol tr s Hx) as Hu.
  destruct (decide (p = p')) as [<-|Hne]; [rewrite Hl in Hl'; by injection Hl' as <- <-|]. exfalso.
  destruct (prefix_weak_total p p' q Hpq Hpq') as [K|K].
  - destruct (Hu p p' Hp Hp') as [E|E]; [by split|congruence..].
  - destruct (Hu p' p Hp' Hp) as [E|E]; [by split; [|congruence]|congruence..].
Qed.

Context (join : str → str → str) (stat : str → option bool).
Context (p r d : path) (c : str) (g : nat) (isdir : bool).
Context (Hp : wpath isvol p) (Hr : r ≠ []) (Hr0 : [] ∉ r) (Hrc : comps_ok backslash r) (Hdc : d ++ [c] = p ++ r).
(** filepath.Join puts the directory and the name together (proved in C78_join). *)
Context (Hj : join (wname p) (relname r) = wname (p ++ r)).
Context (Hh : handle rs (wname p) g isdir) (Hrest : ¬ in_progress rs (wname p)).
Lemma win_entry : wpath isvol d ∧ c ≠ [] ∧ comp_ok backslash c.
Proof.
  destruct r as [|x r0 _] eqn:E using rev_ind; [done|]. clear Hr. rewrite app_assoc in Hdc. apply app_inj_2 in Hdc as [-> [= ->]]; [|done].
  rewrite elem_of_app in Hr0. apply Forall_app in Hrc as [Hc1 Hc2]. apply Forall_cons in Hc2 as [Hc2 _].
  split_and!; [|intros ->; apply Hr0; right; by left|done].
  destruct Hp as [P1 (v&cs&->&P2&P3&P4)]. split.
  - rewrite elem_of_app. intros [H|H]; [done|]. apply Hr0. by left.
  - exists v, (cs ++ r0). split_and!; [done|done|by destruct cs|]. apply Forall_app. by split.
Qed.
Lemma win_info ft v : v ≠ 0 → disj_ev v (internal readdcw) →
  rreported readdcw backslash true isvol (rd_info join stat (RdEvent (wname p) (relname r) ft v)) d c.
Proof.
  intros Hv Hi. destruct win_entry as (H1&H2&H3). split_and!; try done. cbn [rd_info ei_path re_dir re_name]. by rewrite Hj, Hdc.
Qed.
(** What a channel is offered for a record of the OS is exact: the generic event of the
    action as often as the registrations demand, and likewise the native event, and no
    other. *)
Theorem C71_exact E n a ge se : winenv isvol E → (a, (ge, se)) ∈ actions →
  let got v := wheard E s join stat (record_sent rs g (FN a (relname r))) n v in
  got ge = deliveries readdcw (asked tr) n ge d c ∧
  got se = native_deliveries (asked tr) n a isdir d c ∧
  ∀ v, v ≠ ge → v ≠ se → got v = 0%nat.
Proof.
  intros HE Ha. cbv zeta. destruct (handle_filter rtr rs (wname p) g isdir Ho Hrest Hh) as (e&k&st&W&He&Hst&Hs).
  rewrite (wdrives_want _ _ Hd) in W. rewrite Hs. set (f := if isdir then _ else _). clear Hs.
  assert (nonzero (f .& dirmarker) = isdir) as Hdm.
  { unfold f. destruct isdir.
    - apply negb_true_iff, N.eqb_neq, nonzero_bit. exists 26. rewrite has_land, has_lor. split; [by right|by vm_compute].
    - apply negb_false_iff, N.eqb_eq, land_zero_disj. intros i [[H1|H1]%has_lor _]%has_ldiff H2.
      + by apply (req_disj e dirmarker He ltac:(by vm_compute) i).
      + assert (disj_ev onlyMachineStates dirmarker) as K by (apply land_zero_disj; by vm_compute). by apply (K i), H2; apply Hst. }
  assert (∀ j, has e j → (isdir = true ∨ j ≠ 1) → has f j) as Hef.
  { intros j H1 H2. unfold f. destruct isdir; [rewrite !has_lor; by left; left|]. apply has_ldiff. split; [apply has_lor; by left|].
    destruct H2 as [|H2]; [done|]. unfold has, FileNotifyChangeDirName. change 2 with (2 ^ 1). rewrite N.pow2_bits_eqb. intros K%N.eqb_eq. done. }
  assert (p `prefix_of` (d ++ [c])) as Hpre by (rewrite Hdc; by exists r).
  assert (∀ q j, q `prefix_of` (d ++ [c]) → has (asked tr q n) j → ¬ has (internal readdcw) j → (isdir = true ∨ j ≠ 1) → has f j) as Hcov.
  { intros q j Hq H1 H2 H3. apply Hef; [|done]. by eapply win_covered. }
  destruct (oexec_sound readdcw win_ok backslash true isvol true tr s Hx) as (Hrx&Hok&_).
  destruct (actions_apart _ _ _ Ha) as (A1&A2&A3).
  assert (∀ v, v ∈ [Create readdcw; Remove readdcw; Write readdcw; Rename readdcw; FileActionAdded; FileActionRemoved; FileActionModified; FileActionRenamedOldName; FileActionRenamedNewName] → disj_ev v (internal readdcw)) as Hint.
  { intros v Hv. apply land_zero_disj. repeat (apply elem_of_cons in Hv as [->|Hv]; [by vm_compute|]). by apply elem_of_nil in Hv. }
  assert (disj_ev ge (internal readdcw) ∧ disj_ev se (internal readdcw) ∧ ge .& fileActionAll = 0 ∧ se .& fileActionAll = se ∧ ge .& fileNotifyChangeModified = 0 ∧ ¬ has ge 1) as (I1&I2&I3&I4&I5&I6).
  { unfold actions in Ha. repeat (apply elem_of_cons in Ha as [[= -> -> ->]|Ha]; [split_and!; [apply Hint; rewrite !elem_of_cons; tauto|apply Hint; rewrite !elem_of_cons; tauto|by vm_compute..]|]). by apply elem_of_nil in Ha. }
  split_and!.
  - rewrite (wheard_send E s join stat (wname p) f a (relname r) ge se n ge Ha). cbv zeta. rewrite decide_True by done.
    destruct (nonzero (f .& ge)) eqn:Eg.
    + rewrite (C30_exact_delivery readdcw win_ok ltac:(done) backslash true isvol tr s E _ d c n Hrx Hok HE); [|by apply win_info|].
      * f_equal. unfold needs. cbn [rd_info ei_event re_e]. by rewrite I3.
      * intros _. unfold needs. cbn [rd_info ei_event re_e]. rewrite I3. cbn. by apply land_zero_disj.
    + symmetry. destruct (decide (deliveries readdcw (asked tr) n ge d c = 0%nat)) as [|Hne]; [done|]. exfalso.
      apply deliveries_pos in Hne as (q&Hq&Hi). apply nonzero_bit in A1 as [j A1]. apply negb_false_iff, N.eqb_eq, land_zero_disj in Eg.
      apply (Eg j); [|done]. apply (Hcov q); [done|by apply Hi|by intros ?; apply (I1 j)|]. right. by intros ->.
  - rewrite (wheard_send E s join stat (wname p) f a (relname r) ge se n se Ha). cbv zeta. rewrite decide_False by done. rewrite decide_True by done.
    assert (nonzero (f .& fileNotifyChangeModified) = true → sends_native f = true) as Hm.
    { intros H. unfold sends_native. cbv zeta. rewrite H. by rewrite orb_true_r. }
    assert (∀ m, disj_ev m (internal readdcw) → (isdir = true ∨ ¬ has m 1) → f .& m = 0 → ∀ q, q `prefix_of` (d ++ [c]) → asked tr q n .& m = 0) as Hz.
    { intros m Hmi Hm1 Hfm q Hq. apply land_zero_disj. intros j H1 H2. apply land_zero_disj in Hfm. apply (Hfm j); [|done]. apply (Hcov q); [done|done|by intros ?; apply (Hmi j)|].
      destruct Hm1 as [|Hm1]; [by left|]. right. by intros ->. }
    unfold native_deliveries. destruct (decide (a = FILE_ACTION_MODIFIED)) as [->|Hna].
    + assert (se = FileActionModified) as ->.
      { unfold actions in Ha. repeat (apply elem_of_cons in Ha as [Ha|Ha]; [try discriminate Ha; by injection Ha|]). by apply elem_of_nil in Ha. }
      destruct (sends_native f) eqn:Esn.
      * rewrite (C30_windows_modified readdcw win_ok ltac:(done) backslash true isvol tr s E _ d c n Hrx Hok HE); [done|by apply win_info|done|by vm_compute].
      * assert (f .& fileNotifyChangeModified = 0) as Hf0. { apply N.eqb_eq. destruct (f .& fileNotifyChangeModified =? 0) eqn:E0; [done|]. assert (false = true) as K; [|done]. by apply Hm. }
        symmetry. generalize (seq 0 (length d + 2)). intros l. induction l as [|i l IH]; [done|]. cbn [fmap list_fmap foldr]. rewrite IH.
        rewrite decide_True; [done|]. apply Hz; [apply land_zero_disj; by vm_compute|right; by vm_compute|done|]. exists (drop i (d ++ [c])). by rewrite take_drop.
    + assert (rd_ftype f a = if isdir then fTypeDirectory else fTypeFile) as Hft.
      { unfold rd_ftype. rewrite (proj2 (N.eqb_neq _ _) Hna), Hdm. done. }
      assert (se .&^ fileActionAll = 0) as I4'. { rewrite <-I4. apply has_ext. intros i. rewrite has_ldiff, has_land. split; [intros [[_ ?] ?]; done|by intros ?%has_0]. }
      assert (∀ ft, needs readdcw (rd_info join stat (RdEvent (wname p) (relname r) ft se)) =
        match ft with fTypeFile => FileNotifyChangeFileName | fTypeDirectory => FileNotifyChangeDirName | fTypeUnknown => fileNotifyChangeModified end) as Hneed.
      { intros ft. unfold needs. cbn [rd_info ei_event re_e ei_ftype re_ftype]. rewrite I4, (proj2 (N.eqb_neq _ _) A2), I4'. by destruct ft. }
      destruct (sends_native f) eqn:Esn.
      * rewrite (C30_exact_delivery readdcw win_ok ltac:(done) backslash true isvol tr s E _ d c n Hrx Hok HE); [|by apply win_info|].
        -- rewrite Hneed, Hft. by destruct isdir.
        -- intros _. rewrite Hneed, Hft. apply land_zero_disj. destruct isdir; by vm_compute.
      * symmetry. destruct (decide (deliveries readdcw (asked tr) n (if isdir then FileNotifyChangeDirName else FileNotifyChangeFileName) d c = 0%nat)) as [|Hne]; [done|]. exfalso.
        apply deliveries_pos in Hne as (q&Hq&Hi). unfold sends_native in Esn. cbv zeta in Esn. rewrite Hdm in Esn. apply orb_false_iff in Esn as [Esn _].
        set (m := if isdir then _ else _) in Hi.
        assert (f .& m = 0) as Hf0. { unfold m. clearbody f. destruct isdir; cbn [andb negb orb] in Esn; rewrite ?orb_false_r in Esn; by apply N.eqb_eq, negb_false_iff. }
        assert (asked tr q n .& m = 0) as Ha0. { apply Hz; try done; [unfold m; apply land_zero_disj; destruct isdir; by vm_compute|]. unfold m. destruct isdir; [by left|right; by vm_compute]. }
        apply land_zero_disj in Ha0. destruct (proj1 (nonzero_bit m) ltac:(by unfold m; destruct isdir)) as [i Hmi]. apply (Ha0 i); [by apply Hi|done].
  - intros v V1 V2. rewrite (wheard_send E s join stat (wname p) f a (relname r) ge se n v Ha). cbv zeta. rewrite decide_False by done. by rewrite decide_False.
Qed.
End sys.

(** What a registration asks for the OS is asked for: on a directory at or above it that is
    watched, with a filter that reports it, and including everything below unless the
    entry is directly in the directory. *)
Theorem C71_asked isvol tr s rtr rs q n v f d c r0 :
  wexec isvol tr s → wdrives (st_log s) rtr → rdorderly rtr rs → (∀ x, wpath isvol x → x `prefix_of` d → ¬ in_progress rs (wname x)) →
  (v, f) ∈ reporting → asked tr q n .& v ≠ 0 → d ++ [c] = q ++ r0 → r0 ≠ [] → (length r0 = 1%nat ∨ asked tr q n .& recursive readdcw ≠ 0) →
  ∃ p r F k, wpath isvol p ∧ d ++ [c] = p ++ r ∧ r ≠ [] ∧ open_handle rs (wname p) (F, k) ∧ incl_ev f F ∧ (k = true ∨ length r = 1%nat).
Proof.
  intros Hx Hd Ho Hrest Hin Hav Hdc Hr0 Hk0. destruct (C32_covered_partial readdcw win_ok backslash true isvol tr s Hx) as [Hcov _].
  apply nonzero_bit in Hav as [j [Ha Hvj]%has_land].
  destruct (Hcov q n) as (p&e&k&Hp&[r' ->]&Hl&Hi&Hk). { intros E. rewrite E in Ha. by apply has_0 in Ha. }
  assert (disj_ev v (internal readdcw) ∧ ((f = DN ∧ incl_ev v dset) ∨ ((v, f) ∈ implied ∧ ¬ has v 1))) as [Hvi Hcase].
  { unfold reporting in Hin. apply elem_of_app in Hin as [Hin|Hin].
    - pose proof Hin as Hin'. unfold implied in Hin'.
      repeat (apply elem_of_cons in Hin' as [[= -> ->]|Hin']; [split; [apply land_zero_disj; by vm_compute|]; first [right; split; [done|by vm_compute]|left; split; [done|apply inclb_ok; by vm_compute]]|]).
      by apply elem_of_nil in Hin'.
    - repeat (apply elem_of_cons in Hin as [[= -> ->]|Hin]; [split; [apply land_zero_disj; by vm_compute|left; split; [done|apply inclb_ok; by vm_compute]]|]). by apply elem_of_nil in Hin. }
  assert (has e j) as He. { apply Hi, has_ldiff. split; [done|]. intros H. by apply (Hvi j). }
  destruct (C48_settled_partial rtr rs (wname p) e k Ho) as [(l&Hh&Hop) _]; [by rewrite (wdrives_want _ _ Hd)| |].
  { apply Hrest; [done|]. destruct r0 as [|x r1 _] using rev_ind; [done|]. rewrite app_assoc in Hdc. apply app_inj_2 in Hdc as [-> _]; [|done].
    rewrite <-app_assoc. by apply prefix_app_r. }
  destruct Hh as (file&dir&->&Hf&Hdir).
  assert (∃ F, (F, k) ∈ file ++ dir ∧ incl_ev f F) as (F&HF&HfF).
  { destruct Hcase as [[-> Hv]|[Hv1 Hv2]].
    - exists DN. split; [|by intros ? ?]. apply elem_of_app. right. subst dir. rewrite decide_False; [by left|]. apply nonzero_bit. exists j. apply has_land. split; [done|by apply Hv].
    - assert (has (e .&^ DN) j) as He'.
      { apply has_ldiff. split; [done|]. unfold has, FileNotifyChangeDirName. change 2 with (2 ^ 1). rewrite N.pow2_bits_eqb. intros K%N.eqb_eq. by subst j. }
      rewrite decide_False in Hf; [|apply nonzero_bit; by exists j]. destruct Hf as (F&->&HF). exists F. split; [by left|]. intros i Hfi. apply HF.
      exists v, f. split_and!; [done| |done]. apply nonzero_bit. exists j. by apply has_land. }
  exists p, (r' ++ r0), F, k. split_and!; [done|by rewrite app_assoc|by destruct r'|by apply Hop|done|].
  destruct (decide (p = p ++ r')) as [E|E]; [|left; apply Hk; by left].
  assert (r' = []) as -> by (by apply (app_inv_head p); rewrite app_nil_r). cbn [app]. destruct Hk0 as [Hk0|Hk0]; [by right|]. left. apply Hk. right. by apply bool_decide_eq_true.
Qed.

(** ** Instances *)
Lemma WL_obliging : obliging readdcw WL.
Proof. by apply (lawful_obliging WL). Qed.
Local Ltac wops := repeat (apply Forall_cons; split; [split; [apply wenv_ok|apply WL_obliging]|]); by apply Forall_nil.
Definition wjoin (d n : str) : str := d ++ backslash :: n.
Lemma wjoin_ok isvol p r : wpath isvol p → r ≠ [] → wjoin (wname p) (relname r) = wname (p ++ r).
Proof.
  intros (_&v&cs&->&_&Hcs&_) Hr. unfold wjoin, relname. destruct r as [|x r]; [done|]. cbn [render nameof app tail].
  rewrite <-app_assoc. f_equal. clear Hcs. induction cs as [|y cs IH]; cbn [render app]; [done|]. by rewrite <-app_assoc, IH.
Qed.
(** Channel 1 asked recursively for Create and Write in C:\a, channel 2 for Rename and the
    names of files in C:\a\b, channel 3 for Create and changes of size in C:\a.  A file f
    is created and written to in C:\a\b, and then a directory x in C:\a. *)
Definition winops : list (env * nop) := [
  (WL, NWatch (wpth "a") true 1 (Create readdcw .| Write readdcw)); (WL, NWatch (wpth "a/b") false 2 (Rename readdcw .| FileNotifyChangeFileName));
  (WL, NWatch (wpth "a") false 3 (Create readdcw .| FileNotifyChangeSize))].
Definition wca : str := b "C:\a".
Definition wev1 : N := Create readdcw .| Write readdcw.
Definition wev2 : N := wev1 .| Rename readdcw .| FileNotifyChangeFileName.
Definition wev3 : N := wev2 .| FileNotifyChangeSize.
Definition served_loop : list rlabel := [LTake 1 []; LRead 1 true; LState 1 true true; LTake 2 []; LRead 2 true; LState 2 true true].
Definition winrtr : list rlabel :=
  ([LReq (QWatch wca wev1 true) true true true] ++ [LReq (QRewatch wca wev1 wev2 true) true true true] ++ served_loop ++
   [LReq (QRewatch wca wev2 wev3 true) true true true] ++ served_loop).
Definition wintr : list (nop * result) := (rrun backslash true init_st winops).1.
Definition winst : st := (rrun backslash true init_st winops).2.
Definition winrs : rstate := rdfinal true winrtr.
Lemma wdrives_loops log rtr l : wdrives log rtr → Forall loop_label l → wdrives log (rtr ++ l).
Proof.
  intros Hd Hl. revert rtr Hd. induction Hl as [|x l Hx Hl IH]; intros rtr Hd; [by rewrite app_nil_r|]. rewrite cons_middle, app_assoc. apply IH. by constructor.
Qed.
Lemma served_loop_ok : Forall loop_label served_loop.
Proof. repeat (apply Forall_cons; split; [by intros ? ? ? ?|]). by apply Forall_nil. Qed.
Lemma winst_log : st_log winst = [(WRecWatch wca wev1, true)] ++ [(WRecRewatch wca wca wev1 wev2, true)] ++ [(WRecRewatch wca wca wev2 wev3, true)].
Proof. by vm_compute. Qed.
Lemma winst_drives : wdrives (st_log winst) winrtr.
Proof.
  rewrite winst_log. unfold winrtr. rewrite !app_assoc. apply wdrives_loops; [|apply served_loop_ok].
  apply wd_call; [|constructor]. rewrite <-!app_assoc, (app_assoc [LReq (QWatch _ _ _) _ _ _]). apply wdrives_loops; [|apply served_loop_ok].
  apply wd_call; [|constructor]. apply (wd_call [] []); constructor.
Qed.
Definition restb (rs : rstate) : bool :=
  forallb (λ x, match rs_wds rs !! x.2 with Some wd => w_filter wd .& onlyMachineStates =? 0 | None => true end) (map_to_list (rs_tab rs)).
Lemma rest_check rs : restb rs = true → ∀ q, ¬ in_progress rs q.
Proof.
  unfold restb. rewrite forallb_forall. intros H q (i&x&Ht&Hx&Hf). apply elem_of_map_to_list, elem_of_list_In, H in Ht. cbn [snd] in Ht.
  rewrite Hx in Ht. by apply N.eqb_eq in Ht.
Qed.
Definition handleb (rs : rstate) (p : str) (g : nat) (isdir : bool) : bool :=
  match rs_grips rs !! g with
  | Some gr => g_open gr && Bool.eqb isdir (bool_decide (rd_encode (g_filter gr) = FileNotifyChangeDirName)) &&
      match rs_wds rs !! g_parent gr with Some wd => bool_decide (w_path wd = p) | None => false end
  | None => false
  end.
Lemma handle_check rs p g isdir : handleb rs p g isdir = true → handle rs p g isdir.
Proof.
  unfold handleb, handle. destruct (rs_grips rs !! g) as [gr|]; [|done]. destruct (rs_wds rs !! g_parent gr) as [wd|] eqn:Hw; [|by rewrite andb_false_r].
  rewrite !andb_true_iff, bool_decide_eq_true. intros [[H1 H2%eqb_prop] H3]. by exists gr, wd.
Qed.
Example C71_hyps :
  wexec drive wintr winst ∧ wdrives (st_log winst) winrtr ∧ rdorderly winrtr winrs ∧ (∀ p, ¬ in_progress winrs p) ∧ wjoin wca (relname (pth "b/f")) = wname (wpth "a" ++ pth "b/f") ∧ winenv drive WL ∧
  wpath drive (wpth "a") ∧ handle winrs wca 1 false ∧ handle winrs wca 2 true ∧
  (let got r g a n v := wheard WL winst wjoin (λ _, None) (record_sent winrs g (FN a (relname r))) n v in
   [got (pth "b/f") 1%nat FILE_ACTION_ADDED 1%positive (Create readdcw); got (pth "b/f") 1%nat FILE_ACTION_ADDED 2%positive FileActionAdded;
    got (pth "b/f") 1%nat FILE_ACTION_ADDED 3%positive (Create readdcw);
    got (pth "b/f") 1%nat FILE_ACTION_MODIFIED 1%positive (Write readdcw); got (pth "b/f") 1%nat FILE_ACTION_MODIFIED 2%positive FileActionModified;
    got (pth "x") 2%nat FILE_ACTION_ADDED 3%positive (Create readdcw); got (pth "x") 2%nat FILE_ACTION_ADDED 2%positive FileActionAdded]
   = [1; 1; 0; 1; 0; 1; 0]%nat).
Proof.
  split_and!.
  - apply (orun_oexec readdcw backslash true); [wops|by vm_compute].
  - apply winst_drives.
  - apply rdfinal_orderly. by vm_compute.
  - apply rest_check. by vm_compute.
  - by vm_compute.
  - apply wenv_ok.
  - apply (rpathb_ok backslash true). by vm_compute.
  - apply handle_check. by vm_compute.
  - apply handle_check. by vm_compute.
  - by vm_compute.
Qed.
(** A channel that asked for Rename alone is not told of directories being renamed: no
    handle asks the OS for the names of directories. *)
Definition winren : list (env * nop) := [(WL, NWatch (wpth "a") false 1 (Rename readdcw))].
Definition winren_rtr : list rlabel := [LReq (QWatch wca (Rename readdcw) false) true true true].
Theorem C71_rename_refuted :
  let tr := (rrun backslash true init_st winren).1 in let s := (rrun backslash true init_st winren).2 in let rs := rdfinal true winren_rtr in
  wexec drive tr s ∧ wdrives (st_log s) winren_rtr ∧ rdorderly winren_rtr rs ∧ (∀ p, ¬ in_progress rs p) ∧
  deliveries readdcw (asked tr) 1 (Rename readdcw) (wpth "a") (b "x") = 1%nat ∧
  ∀ p F k, open_handle rs p (F, k) → F .& FileNotifyChangeDirName = 0.
Proof.
  intros tr s rs.
  assert (rdorderly winren_rtr rs) as Ho by (apply rdfinal_orderly; by vm_compute).
  assert (∀ p, ¬ in_progress rs p) as Hr. { apply rest_check. by vm_compute. }
  split_and!; [apply (orun_oexec readdcw backslash true); [wops|by vm_compute]| |done|done|by vm_compute|].
  - assert (st_log s = [] ++ [(WWatch wca (Rename readdcw), true)]) as -> by (by vm_compute). apply (wd_call [] []); constructor.
  - intros p F k Hop. destruct (decide (p = wca)) as [->|Hne].
    + destruct (C48_settled_partial winren_rtr rs wca (Rename readdcw) false Ho) as [(l&(file&dir&->&Hf&Hd)&Hl) _]; [by vm_compute|apply Hr|].
      apply Hl in Hop. rewrite decide_False in Hf by (by vm_compute). rewrite decide_True in Hd by (by vm_compute). destruct Hf as (f&->&Hf). subst dir.
      rewrite app_nil_r in Hop. apply elem_of_list_singleton in Hop as [= -> ->]. apply land_zero_disj. intros i Hi Hi'. apply Hf in Hi as (r0&f0&Hin&H1&H2).
      unfold implied in Hin. repeat (apply elem_of_cons in Hin as [[= -> ->]|Hin]; [try (by vm_compute in H1)|]); [|by apply elem_of_nil in Hin].
      assert (disj_ev FileNotifyChangeFileName FileNotifyChangeDirName) as K by (apply land_zero_disj; by vm_compute). by apply (K i).
    + exfalso. destruct (C48_gone_partial winren_rtr rs p Ho) as [_ H]; [|apply Hr|by eapply H].
      unfold want, winren_rtr. cbn [foldl want1 req_path]. by rewrite decide_False.
Qed.

Print Assumptions C71_loop.
Print Assumptions C71_exact.
Print Assumptions C71_asked.
Print Assumptions C71_hyps.
Print Assumptions C71_rename_refuted.
