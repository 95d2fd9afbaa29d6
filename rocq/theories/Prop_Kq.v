(** * Property theorem C72: kqueue and FEN, from a report of the OS to the user's channels. *)
From Verif Require Import Base Event Watchpoint WatchpointFacts Paths PathsFacts Loop LoopFacts
  Node NodeFacts SpecTree WalkFacts RootFacts NonRec NonRecWp SpecNonRec SpecNonRecOS SpecOS NonRecFacts NonRecOps NonRecReg
  NonRecStep NonRecDisp NonRecStop NonRecOS NonRecCov NonRecFwd NonRecRun Prop_Basics Prop_NonRec
  Clean SpecClean CleanFacts Trigger SpecTrigger TriggerFacts TriggerTab TriggerRun TriggerRoles TriggerScan TriggerEx SpecKq KqFacts.
From Verif Require Prop_Trigger Prop_Linux.
Local Open Scope N_scope.
Notation kreported := SpecTrigger.reported.

Lemma trig_ok T : known_trig T → platform_ok (t_plat T) ∧ windows (t_plat T) = false.
Proof. intros [-> | ->]; (split; [apply C56_constants; unfold platforms; rewrite !elem_of_cons; tauto|done]). Qed.
Lemma stands_bits T g f : known_trig T → (g, f) ∈ stands T → g ≠ 0 ∧ disj_ev g (internal (t_plat T)) ∧ disj_ev g (omit (t_plat T)).
Proof.
  intros HT Hg. assert (Forall (λ x, negb (x.1 =? 0) && (x.1 .& internal (t_plat T) =? 0) && (x.1 .& omit (t_plat T) =? 0) = true) (stands T)) as HF.
  { destruct HT as [-> | ->]; repeat constructor. }
  rewrite Forall_forall in HF. specialize (HF _ Hg). cbn [fst] in HF. apply andb_true_iff in HF as [[H1 H2]%andb_true_iff H3].
  split_and!; [by apply negb_true_iff, N.eqb_neq in H1|by apply land_zero_disj, N.eqb_eq|by apply land_zero_disj, N.eqb_eq].
Qed.
Lemma decoded_omit T o w : known_trig T → disj_ev (decode (t_nat2not T) o w) (omit (t_plat T)).
Proof.
  intros HT j (x&Hx&_&Hj)%(decode_spec T); [|done]. intros Hom. assert (∃ f, (x, f) ∈ stands T) as [f Hf].
  { destruct Hx as [[Hx _]|(f&Hf&_)]; [exists x|exists f]; unfold stands; apply elem_of_app; [right|by left]. apply elem_of_list_fmap. by exists x. }
  destruct (stands_bits T x f HT Hf) as (_&_&Hd). by apply (Hd j).
Qed.

Section kq.
Context (T : trig) (HT : known_trig T) (ty : str → bool).
Notation P := (t_plat T).
Notation kq_system := (kq_system T ty).
Lemma system_legal tr s L r ts : kq_system tr s L r ts → log_legal P (st_log s).
Proof. intros [_ Ht _]. destruct (trig_ok T HT) as [HP HW]. by eapply C23_contract. Qed.
Lemma kreported_info e d c : d ≠ [] → Forall proper d → proper c → te_e e ≠ 0 → disj_ev (te_e e) (omit P) →
  te_p e = render slash (d ++ [c]) → Prop_NonRec.reported P slash (te_info e) d c.
Proof.
  intros Hn Hd Hc H0 Ho Hp. destruct (trig_ok T HT) as [HP HW]. pose proof (gpath_upath P HP slash d (Prop_Linux.proper_upath d Hn Hd)) as Hu.
  unfold Prop_NonRec.reported. split_and!; try done. apply Hc.
Qed.
Lemma asked_direct tr s L r ts d n x : kq_system tr s L r ts → d ≠ [] → Forall proper d → direct r (render slash d) ≠ 0 →
  incl_ev x (asked P tr d n) → disj_ev x (internal P) → x ≠ 0 → incl_ev x (direct r (render slash d)).
Proof.
  intros Hsys Hdn Hdp Hr Hx Hxi Hx0. pose proof Hsys as [Hk Ht Hnf]. destruct (trig_ok T HT) as [HP HW].
  destruct (Prop_Linux.proper_upath d Hdn Hdp) as (_&Hc&_).
  destruct (C19_registered P HP slash tr s d n Ht Hnf Hc) as (m&Hm&Hi).
  { intros Hz. rewrite Hz in Hx. apply nonzero_bit in Hx0 as [i Hi]. apply Hx in Hi. by apply has_0 in Hi. }
  pose proof (kdrives_direct T ty P _ _ _ _ _ Hk (system_legal _ _ _ _ _ Hsys) Hr) as K. rewrite Hm in K. injection K as ->.
  clear - Hx Hxi Hi. bits.
Qed.
(** [q] is watched for [x] as the entry of a directory. *)
Lemma member_of tr s L r ts d c x : kq_system tr s L r ts → d ≠ [] → Forall proper d → proper c → L (render slash (d ++ [c])) →
  incl_ev x (direct r (render slash d)) → incl_ev x (member r (render slash (d ++ [c]))).
Proof.
  intros Hsys Hdn Hdp Hc HL Hx i Hi. pose proof Hsys as [Hk Ht Hnf].
  eapply (kdrives_listed T ty P _ _ _ _ (render slash d) (render slash (d ++ [c])) Hk (system_legal _ _ _ _ _ Hsys)); [|done|by apply Hx].
  exists d, c. split_and!; [done|done|by rewrite Prop_Linux.topath_render|]. rewrite Prop_Linux.topath_render; [done|by destruct d].
Qed.
(** An event that stands for the report is asked of the OS and decoded. *)
Lemma stands_asked g f w dir : u32 w → (g, f) ∈ stands T → incl_ev g w → incl_ev f (t_encode T w dir) ∨ incl_ev f (exceptions T).
Proof.
  intros Hu Hg Hw. unfold stands in Hg. apply elem_of_app in Hg as [Hg|(x&[= -> ->]&Hx)%elem_of_list_fmap].
  - apply (Prop_Trigger.C49_round_trip T w dir g f HT Hu Hg). intros Hz. assert (g ≠ 0) as H0.
    { destruct (stands_bits T g f HT) as [? _]; [|done]. unfold stands. apply elem_of_app. by left. }
    apply H0. apply has_ext. intros i. split; [|intros H; by apply has_0 in H]. intros Hi. exfalso. eapply (has_0 i). rewrite <-Hz. apply has_land. split; [by apply Hw|exact Hi].
  - assert (incl_ev x (exceptions T) ∨ (disj_ev x (exceptions T) ∧ disj_ev x (All P))) as [Hx1|[Hx1 Hx2]].
    { assert (Forall (λ x, (exceptions T .& x =? x) || ((x .& exceptions T =? 0) && (x .& All P =? 0)) = true) (natives T)) as HF.
      { destruct HT as [-> | ->]; repeat constructor. }
      rewrite Forall_forall in HF. specialize (HF _ Hx). cbv beta in HF. apply orb_true_iff in HF as [HF|[H1 H2]%andb_true_iff].
      - left. by apply land_eq_incl, N.eqb_eq.
      - right. split; by apply land_zero_disj, N.eqb_eq. }
    + by right.
    + left. intros i Hi. assert (native_bit T dir w i) as K.
      { split; [intros Hxi; by apply (Hx1 i)|]. left. split; [by apply Hw|]. intros Ha. by apply (Hx2 i). }
      destruct HT as [-> | ->]; [by apply kq_encode_spec|by apply fen_encode_spec].
Qed.
Lemma stands_decoded g f ge w : (g, f) ∈ stands T → incl_ev g w → ge .& f ≠ 0 →
  (∀ x, kreported T ge x → x ≠ g → w .& x = 0) → decode (t_nat2not T) ge w = g.
Proof.
  intros Hg Hw Hge Ho. destruct (stands_bits T g f HT Hg) as [H0 _]. apply has_ext. intros i. rewrite (decode_spec T ge w i HT). split.
  - intros (x&Hx&Hwx&Hi). destruct (decide (x = g)) as [->|Hne]; [done|]. by apply (Ho x Hx) in Hne.
  - intros Hi. exists g. split_and!; [|intros Hz|done].
    + unfold stands in Hg. apply elem_of_app in Hg as [Hg|(x&[= -> ->]&Hx)%elem_of_list_fmap]; [right; by exists f|by left].
    + eapply (has_0 i). rewrite <-Hz. apply has_land. split; [by apply Hw|exact Hi].
Qed.

(** The OS reports something about the file [c] of directory [d] (whatever is pending for it):
    at most one event is made of it, which carries the file's path, and it is offered exactly
    to the channels that asked for all of what it says on the file, on the directory, or
    recursively above. *)
Theorem C72_only_registered_partial tr s L r ts E d c w n st A ord ge evn ts' e :
  kq_system tr s L r ts → nenv P slash E → d ≠ [] → Forall proper d → proper c → let q := render slash (d ++ [c]) in
  tw_at ts q = Some w → ty q = false → tstep T ts (TEvent st A ord (ident_of T w) ge evn) ts' → e ∈ evn →
  evn = [e] ∧ te_p e = q ∧ te_dir e = false ∧ te_e e ≠ 0 ∧ (∀ i, has (te_e e) i ↔ ∃ x, kreported T ge x ∧ (direct r q .| member r q) .& x ≠ 0 ∧ has x i) ∧
  ((0 < offered E s (te_info e) (KUser n))%nat ↔
    incl_ev (te_e e) (asked P tr (d ++ [c]) n) ∨ incl_ev (te_e e) (asked P tr d n) ∨
    ∃ a, a `prefix_of` d ∧ a ≠ d ∧ incl_ev (te_e e .| recursive P) (asked P tr a n)).
Proof.
  intros Hsys HE Hdn Hdp Hc q Hw Hty Hs He. pose proof Hsys as [Hk Ht Hnf]. destruct (trig_ok T HT) as [HP HW].
  destruct (kdrives_entry T ty _ _ _ _ _ _ Hk Hw) as (Hi&E1&_&E2&_). rewrite Hty in E2.
  pose proof (file_report T ts st A ord q w ge evn ts' Hi Hw E2 Hs) as Hevn. cbv zeta in Hevn. rewrite E1 in Hevn.
  destruct (decide _) as [Hz|Hn]; rewrite Hevn in He; [by apply elem_of_nil in He|]. apply elem_of_list_singleton in He as ->.
  cbn [te_p te_dir te_e]. split_and!; [done|done|done|done|intros i; apply (decode_spec T ge _ i HT)|].
  apply (C17_offered_iff P HP HW slash tr s E (te_info (TE q (decode (t_nat2not T) ge (direct r q .| member r q)) false)) d c n); [by eapply nexec_where_nexec|done|done|].
  apply kreported_info; try done. by apply decoded_omit.
Qed.

Lemma delivered tr s L r ts E d c n g f ge : kq_system tr s L r ts → nenv P slash E → d ≠ [] → Forall proper d → proper c →
  let q := render slash (d ++ [c]) in ty q = false → (g, f) ∈ stands T → incl_ev g (direct r q .| member r q) →
  (0 < offered E s (te_info (TE q g false)) (KUser n))%nat →
  (∃ w m, tw_at ts q = Some w ∧ reg_at T ts q = Some m ∧ (incl_ev f m ∨ incl_ev f (exceptions T))) ∧
  (ge .& f ≠ 0 → (∀ x, kreported T ge x → x ≠ g → (direct r q .| member r q) .& x = 0) →
    ∀ w st A ord evn ts', tw_at ts q = Some w → tstep T ts (TEvent st A ord (ident_of T w) ge evn) ts' →
      evn = [TE q g false] ∧ (0 < offered E s (te_info (TE q g false)) (KUser n))%nat).
Proof.
  intros Hsys HE Hdn Hdp Hc q Hty Hg Hin Hoff. pose proof Hsys as [Hk Ht Hnf]. destruct (stands_bits T g f HT Hg) as (H0&_&_). split.
  - assert (direct r q .| member r q ≠ 0) as Hne.
    { intros Hz. rewrite Hz in Hin. apply nonzero_bit in H0 as [i Hi]. apply Hin in Hi. by apply has_0 in Hi. }
    destruct (kdrives_table T ty _ _ _ _ _ Hk Hne) as [w Hw]. destruct (kdrives_entry T ty _ _ _ _ _ _ Hk Hw) as (_&_&_&_&Hr).
    exists w, (t_encode T (direct r q .| member r q) (ty q)). split_and!; [done|done|]. apply (stands_asked g f); [|done|done].
    destruct (kdrives_u32 T ty _ _ _ _ q Hk) as [? ?]. by apply u32_lor.
  - intros Hge Ho w st A ord evn ts' Hw Hs. split; [|done]. destruct (kdrives_entry T ty _ _ _ _ _ _ Hk Hw) as (Hi&E1&_&E2&_). rewrite Hty in E2.
    pose proof (file_report T ts st A ord q w ge evn ts' Hi Hw E2 Hs) as Hevn. cbv zeta in Hevn. rewrite E1 in Hevn.
    rewrite (stands_decoded g f ge _ Hg Hin Hge Ho) in Hevn. by rewrite decide_False in Hevn.
Qed.
(** A channel asked for the event [g] on the directory [d], which has not been reported gone,
    and the file [c] was in its last listing: the OS is asked for what [g] stands for, and
    when it reports it with nothing else anybody asked for there, the event is offered to
    the channel. *)
Theorem C72_delivered_partial tr s L r ts E d c n g f ge :
  kq_system tr s L r ts → nenv P slash E → d ≠ [] → Forall proper d → proper c → let q := render slash (d ++ [c]) in
  ty q = false → direct r (render slash d) ≠ 0 → L q → (g, f) ∈ stands T → incl_ev g (asked P tr d n) →
  (∃ w m, tw_at ts q = Some w ∧ reg_at T ts q = Some m ∧ (incl_ev f m ∨ incl_ev f (exceptions T))) ∧
  (ge .& f ≠ 0 → (∀ x, kreported T ge x → x ≠ g → (direct r q .| member r q) .& x = 0) →
    ∀ w st A ord evn ts', tw_at ts q = Some w → tstep T ts (TEvent st A ord (ident_of T w) ge evn) ts' →
      evn = [TE q g false] ∧ (0 < offered E s (te_info (TE q g false)) (KUser n))%nat).
Proof.
  intros Hsys HE Hdn Hdp Hc q Hty Hr HL Hg Ha. destruct (stands_bits T g f HT Hg) as (H0&Hgi&Hgo). destruct (trig_ok T HT) as [HP HW].
  assert (incl_ev g (member r q)) as Hm by (eapply member_of; try done; by eapply asked_direct). pose proof Hsys as [Hk Ht Hnf].
  eapply delivered; try done.
  - intros i Hi. apply has_lor. right. by apply Hm.
  - apply (C17_offered_iff P HP HW slash tr s E _ d c n); [by eapply nexec_where_nexec|done|done|by apply kreported_info|]. right. by left.
Qed.
(** The same for channels that asked on the file itself. *)
Theorem C72_delivered_self_partial tr s L r ts E d c n g f ge :
  kq_system tr s L r ts → nenv P slash E → d ≠ [] → Forall proper d → proper c → let q := render slash (d ++ [c]) in
  ty q = false → direct r q ≠ 0 → (g, f) ∈ stands T → incl_ev g (asked P tr (d ++ [c]) n) →
  (∃ w m, tw_at ts q = Some w ∧ reg_at T ts q = Some m ∧ (incl_ev f m ∨ incl_ev f (exceptions T))) ∧
  (ge .& f ≠ 0 → (∀ x, kreported T ge x → x ≠ g → (direct r q .| member r q) .& x = 0) →
    ∀ w st A ord evn ts', tw_at ts q = Some w → tstep T ts (TEvent st A ord (ident_of T w) ge evn) ts' →
      evn = [TE q g false] ∧ (0 < offered E s (te_info (TE q g false)) (KUser n))%nat).
Proof.
  intros Hsys HE Hdn Hdp Hc q Hty Hr Hg Ha. destruct (stands_bits T g f HT Hg) as (H0&Hgi&Hgo). destruct (trig_ok T HT) as [HP HW].
  assert (incl_ev g (direct r q)) as Hm.
  { eapply asked_direct; try done; [by destruct d|]. apply Forall_app. split; [done|]. by apply Forall_singleton. } pose proof Hsys as [Hk Ht Hnf].
  eapply delivered; try done.
  - intros i Hi. apply has_lor. left. by apply Hm.
  - apply (C17_offered_iff P HP HW slash tr s E _ d c n); [by eapply nexec_where_nexec|done|done|by apply kreported_info|]. by left.
Qed.
Lemma in_force_asked tr p n e : in_force P tr p n e → incl_ev (e .| recursive P) (asked P tr p n).
Proof.
  intros (tr1&tr2&->&Hst&Hrm). unfold asked. rewrite foldl_app. cbn [foldl].
  set (g := ask P _ _). assert (incl_ev (e .| recursive P) (g p n)) as Hg.
  { subst g. cbn [ask]. rewrite decide_True by done. cbn [rec_bit]. intros i. rewrite !has_lor. tauto. }
  clearbody g. revert g Hg. induction tr2 as [|[o r] tr2 IH]; intros g Hg; [done|]. cbn [foldl]. apply IH.
  - intros r' Hr'. apply (Hst r'). by right.
  - intros q r' Hr'. apply (Hrm q r'). by right.
  - destruct o as [q isrec m e'|m|ev q]; cbn [ask].
    + destruct r; try done. case_decide as Hd; [|done]. intros i Hi. rewrite !has_lor. left. left. by apply Hg.
    + case_decide as Hd; [|done]. subst m. exfalso. apply (Hst r). by left.
    + case_decide as Hd; [|done]. destruct Hd as [-> Hq]. exfalso. apply (Hrm q r); [by left|done].
Qed.
(** The same for a recursive Watch and the files of every directory below. *)
Theorem C72_recursive_partial tr D s L r ts E a d c n ev g f ge :
  kq_system tr s L r ts → fexec P slash tr D s → in_force P tr a n ev → d ∈ D → a `prefix_of` d →
  nenv P slash E → d ≠ [] → Forall proper d → proper c → let q := render slash (d ++ [c]) in
  ty q = false → direct r (render slash d) ≠ 0 → L q → (g, f) ∈ stands T → incl_ev g ev →
  (∃ w m, tw_at ts q = Some w ∧ reg_at T ts q = Some m ∧ (incl_ev f m ∨ incl_ev f (exceptions T))) ∧
  (ge .& f ≠ 0 → (∀ x, kreported T ge x → x ≠ g → (direct r q .| member r q) .& x = 0) →
    ∀ w st A ord evn ts', tw_at ts q = Some w → tstep T ts (TEvent st A ord (ident_of T w) ge evn) ts' →
      evn = [TE q g false] ∧ (0 < offered E s (te_info (TE q g false)) (KUser n))%nat).
Proof.
  intros Hsys Hfx Hforce HdD Had HE Hdn Hdp Hc q Hty Hr HL Hg Hge. destruct (stands_bits T g f HT Hg) as (H0&Hgi&Hgo). destruct (trig_ok T HT) as [HP HW].
  pose proof Hsys as [Hk Ht Hnf]. destruct (C20_covered_partial P HP slash tr D s a n ev d Hfx Hforce HdD Had) as (m&Hos&Hem).
  pose proof (kdrives_direct T ty P _ _ _ _ _ Hk (system_legal _ _ _ _ _ Hsys) Hr) as K. rewrite Hos in K. injection K as ->.
  assert (incl_ev g (member r q)) as Hm by (eapply member_of; try done; clear - Hge Hem; bits).
  pose proof (in_force_asked _ _ _ _ Hforce) as Hask.
  eapply delivered; try done.
  - intros i Hi. apply has_lor. right. by apply Hm.
  - apply (C17_offered_iff P HP HW slash tr s E _ d c n); [by eapply nexec_where_nexec|done|done|by apply kreported_info|]. right. cbn [te_info ei_event te_e].
    destruct (decide (a = d)) as [->|Hne]; [left; clear - Hask Hge; bits|].
    right. exists a. split_and!; [done|done|]. clear - Hask Hge. bits.
Qed.
(** The directory [d] is watched and reports a write: a Create is made for exactly the
    entries that are not in the table, in the order of the listing, if anybody asked for
    Create there; a channel that did is offered all of them. *)
Theorem C72_created_partial tr s L r ts E d n st A ord w ls ge evn ts' :
  kq_system tr s L r ts → nenv P slash E → d ≠ [] → Forall proper d → let p := render slash d in
  ty p = true → direct r p ≠ 0 → tw_at ts p = Some w → ge .& (t_rename T .| t_remove T) = 0 → ge .& t_write T ≠ 0 →
  willing A → a_ls A p = Some ls → names_ok ls → NoDup (fi_name <$> ls) → tstep T ts (TEvent st A ord (ident_of T w) ge evn) ts' →
  (∀ e, e ∈ evn → ∃ fi, fi ∈ ls ∧ tw_at ts (join p (fi_name fi)) = None ∧ e = TE (join p (fi_name fi)) (Create P) (fi_dir fi)) ∧
  (incl_ev (Create P) (asked P tr d n) →
    evn = (λ fi, TE (join p (fi_name fi)) (Create P) (fi_dir fi)) <$> new_entries ts p ls ∧
    (∀ e, e ∈ evn → (0 < offered E s (te_info e) (KUser n))%nat) ∧
    ∃ m, reg_at T ts p = Some m ∧ incl_ev (t_write T) m).
Proof.
  intros Hsys HE Hdn Hdp p Hty Hr Hw Hge Hwr HA Hls Hno Hnd Hs. pose proof Hsys as [Hk Ht Hnf]. destruct (trig_ok T HT) as [HP HW].
  destruct (kdrives_texec T ty _ _ _ _ Hk) as [ttr Hx]. destruct (kdrives_entry T ty _ _ _ _ _ _ Hk Hw) as (Hi&E1&E3&E2&E4). rewrite Hty in E2, E4.
  destruct (Prop_Trigger.C51_created_partial T ttr ts st A ord p w ge ls d ts' evn Hx HA) as [Hevn _]; try done.
  { symmetry. by apply Prop_Linux.topath_render. }
  rewrite E3 in Hevn. split.
  - intros e He. rewrite Hevn in He. destruct (decide _); [by apply elem_of_nil in He|]. apply elem_of_list_fmap in He as (fi&->&Hfi).
    unfold new_entries in Hfi. apply elem_of_list_filter in Hfi as [? ?]. eauto.
  - intros Ha. assert (incl_ev (Create P) (direct r p)) as Hc.
    { eapply asked_direct; try done; destruct HT as [-> | ->]; first [apply land_zero_disj; by vm_compute|done]. }
    assert (direct r p .& Create P ≠ 0) as Hcz.
    { intros Hz. assert (Create P ≠ 0) as H0 by (by destruct HT as [-> | ->]). apply nonzero_bit in H0 as [i Hi0]. eapply (has_0 i). rewrite <-Hz. apply has_land. split; [by apply Hc|done]. }
    rewrite decide_False in Hevn by done. split; [done|]. split.
    + intros e He. rewrite Hevn in He. apply elem_of_list_fmap in He as (fi&->&Hfi).
      unfold new_entries in Hfi. apply elem_of_list_filter in Hfi as [_ Hfi]. unfold names_ok in Hno. rewrite Forall_forall in Hno. specialize (Hno fi Hfi).
      apply (C17_offered_iff P HP HW slash tr s E _ d (fi_name fi) n); [by eapply nexec_where_nexec|done|done| |right; by left].
      apply kreported_info; try done; cbn [te_e te_p].
      * by destruct HT as [-> | ->].
      * destruct HT as [-> | ->]; apply land_zero_disj; by vm_compute.
      * by apply Prop_Linux.joined.
    + eexists. split; [exact E4|]. destruct (Prop_Trigger.C49_create T (direct r p .| member r p) HT) as [K _]; [| |exact K].
      * destruct (kdrives_u32 T ty _ _ _ _ p Hk) as [? ?]. by apply u32_lor.
      * intros Hz. apply Hcz. apply has_ext. intros i. split; [|intros H; by apply has_0 in H]. rewrite has_land. intros [H1 H2]. rewrite <-Hz, has_land, has_lor. tauto.
Qed.
(** The directory [c] of [d] is removed or renamed (writes may be reported with that): if
    nothing else anybody asked for there is reported, the channels that asked for it on the
    directory, or on [d] whose last listing it was in, are told. *)
Theorem C72_directory_gone_partial tr s L r ts E d c n g f ge w st A ord evn ts' :
  kq_system tr s L r ts → nenv P slash E → d ≠ [] → Forall proper d → proper c → let p := render slash (d ++ [c]) in
  ty p = true → (g, f) ∈ stands T → disj_ev g (Write P .| t_write T) →
  (direct r p ≠ 0 ∧ incl_ev g (asked P tr (d ++ [c]) n)) ∨ (direct r (render slash d) ≠ 0 ∧ L p ∧ incl_ev g (asked P tr d n)) →
  tw_at ts p = Some w → ge .& (t_rename T .| t_remove T) ≠ 0 → ge .& f ≠ 0 →
  (∀ x, kreported T ge x → x ≠ g → x ≠ Write P → x ≠ t_write T → (direct r p .| member r p) .& x = 0) →
  tstep T ts (TEvent st A ord (ident_of T w) ge evn) ts' →
  ∃ rest, evn = TE p g true :: rest ∧ (0 < offered E s (te_info (TE p g true)) (KUser n))%nat.
Proof.
  intros Hsys HE Hdn Hdp Hc p Hty Hg Hgw Ha Hw Hgone Hge Ho Hs. destruct (stands_bits T g f HT Hg) as (H0&Hgi&Hgo). destruct (trig_ok T HT) as [HP HW].
  pose proof Hsys as [Hk Ht Hnf]. assert (Forall proper (d ++ [c])) as Hdc by (apply Forall_app; split; [done|by apply Forall_singleton]).
  assert (incl_ev g (direct r p .| member r p)) as Hin.
  { intros i Hi. apply has_lor. destruct Ha as [[Hr Ha]|(Hr&HL&Ha)]; [left|right].
    - eapply (asked_direct tr s L r ts (d ++ [c]) n g); try done. by destruct d.
    - eapply (member_of tr s L r ts d c g); try done. by eapply asked_direct. }
  destruct (kdrives_entry T ty _ _ _ _ _ _ Hk Hw) as (Hi&E1&_&E2&_). rewrite Hty in E2.
  assert (kreported T ge g) as Hrg.
  { unfold stands in Hg. apply elem_of_app in Hg as [Hg|(x&[= -> ->]&Hx)%elem_of_list_fmap]; [right; by exists f|by left]. }
  assert (∀ i, has g i → has (decode (t_nat2not T) ge (tw_e w)) i) as Hdec.
  { intros i Hi'. apply (decode_spec T ge _ i HT). exists g. split_and!; [done|rewrite E1; intros Hz|done]. eapply (has_0 i). rewrite <-Hz. apply has_land. split; [by apply Hin|done]. }
  assert (decode (t_nat2not T) ge (tw_e w) .&^ Write P .&^ t_write T = g) as He.
  { apply has_ext. intros i. rewrite !has_ldiff. split.
    - intros [[Hd Hn1] Hn2]. apply (decode_spec T ge _ i HT) in Hd as (x&Hx&Hwx&Hxi). rewrite E1 in Hwx.
      destruct (decide (x = g)) as [->|N1]; [done|]. destruct (decide (x = Write P)) as [->|N2]; [done|]. destruct (decide (x = t_write T)) as [->|N3]; [done|]. by apply (Ho x) in Hx.
    - intros Hi'. split_and!; [by apply Hdec|intros Hn; apply (Hgw i Hi'), has_lor; by left|intros Hn; apply (Hgw i Hi'), has_lor; by right]. }
  destruct (gone_report T ts st A ord p w ge evn ts' Hi Hw E2) as [rest ->]; [|done|done|].
  { left. intros Hz. apply nonzero_bit in H0 as [i Hi']. apply Hdec in Hi'. rewrite Hz in Hi'. by apply has_0 in Hi'. }
  exists rest. rewrite He. split; [done|].
  apply (C17_offered_iff P HP HW slash tr s E _ d c n); [by eapply nexec_where_nexec|done|done|by apply kreported_info|]. destruct Ha as [[_ Ha]|(_&_&Ha)]; [by left|right; by left].
Qed.
End kq.

(** ** Instances *)
(** Channel 1 watches the directory /a/b for [e1], then channel 2 for [e2]; in it is the file f. *)
Definition pab : str := b "/a/b". Definition pabf : str := b "/a/b/f".
Definition f_in : answers := kind (λ q, if decide (q = pab) then Some [FI (b "f") false] else None).
Definition tyab (q : str) : bool := bool_decide (q = pab).
Definition two_ops (T : trig) (e1 e2 : N) : list (env * nop) :=
  let E := mkenv (t_plat T) D0 allok in [(E, NWatch (pth "a/b") false 1 e1); (E, NWatch (pth "a/b") false 2 e2)].
Definition two_tree (T : trig) (e1 e2 : N) := nrun init_st (two_ops T e1 e2).
Definition two_trig (T : trig) (e1 e2 : N) : tstate :=
  (run T [XWatch (Some true) f_in pab e1; XRewatch (Some true) f_in f_in pab (e1 .| e2)]).2.
Definition two_roles (e1 e2 : N) : roles :=
  role_watch (role_unwatch (role_watch no_roles pab [FI (b "f") false] e1) pab [FI (b "f") false]) pab [FI (b "f") false] (e1 .| e2).
Definition two_listed : str → Prop := relisted (relisted (λ _, False) pab [FI (b "f") false]) pab [FI (b "f") false].
Definition two_E (T : trig) : env := mkenv (t_plat T) D0 allok.
Lemma two_nenv T : nenv (t_plat T) slash (two_E T).
Proof. apply mkenv_nenv, D0_ok. Qed.
Lemma properb c : bool_decide (c ≠ []) && bool_decide (c ≠ dot) && bool_decide (c ≠ dotdot) && bool_decide (slash ∉ c) = true → proper c.
Proof. intros [[[H1 H2]%andb_true_iff H3]%andb_true_iff H4]%andb_true_iff. split_and!; by eapply bool_decide_eq_true_1. Qed.
Lemma ab_proper : Forall proper (pth "a/b") ∧ proper (b "f").
Proof. split; [repeat constructor|]; apply properb; by vm_compute. Qed.
Definition user_evb (P : platform) (e : N) : bool := negb (e =? 0) && (e .& internal P =? 0) && (e <? 2 ^ 32).
Lemma two_system T e1 e2 : known_trig T → user_evb (t_plat T) e1 && user_evb (t_plat T) e2 = true → user_evb (t_plat T) (e1 .| e2) = true →
  forallb (λ x, nop_okb (t_plat T) x.2) (two_ops T e1 e2) = true → forallb (λ x, match x.2 with NonRec.ROk => true | _ => false end) (two_tree T e1 e2).1 = true →
  st_log (two_tree T e1 e2).2 = [(WWatch pab e1, true); (WRewatch pab e1 (e1 .| e2), true)] →
  kq_system T tyab (two_tree T e1 e2).1 (two_tree T e1 e2).2 two_listed (two_roles e1 e2) (two_trig T e1 e2).
Proof.
  intros HT [[[H1 H2]%andb_true_iff H3]%andb_true_iff [[H4 H5]%andb_true_iff H6]%andb_true_iff]%andb_true_iff [[H7 H8]%andb_true_iff H9]%andb_true_iff Hok Hnf Hlog.
  apply N.ltb_lt in H3, H6, H9. apply negb_true_iff, N.eqb_neq in H1, H4, H7. apply N.eqb_eq, land_zero_disj in H2, H5, H8.
  assert (cleanp pab) as Hc.
  { exists (pth "a/b"). split; [apply ab_proper|by vm_compute]. }
  assert (listing tyab f_in pab [FI (b "f") false]) as Hl by (split; [by vm_compute|apply Forall_singleton; by vm_compute]).
  assert (names_ok [FI (b "f") false]) as Hn by (apply Forall_singleton; apply ab_proper).
  split.
  - rewrite Hlog. set (c1 := XWatch (Some true) f_in pab e1). set (c2 := XRewatch (Some true) f_in f_in pab (e1 .| e2)).
    assert (kdrives T tyab [(WWatch pab e1, true)] (relisted (λ _, False) pab [FI (b "f") false]) (role_watch no_roles pab [FI (b "f") false] e1) (run T [c1]).2) as K.
    { pose proof (proj1 (run1_step T ts_init c1)) as Hs. cbn [run1 c1 fst snd] in Hs.
      pose proof (watch_result T tyab f_in pab e1 [FI (b "f") false] ts_init _ no_roles _ (kind_willing _) (ord_init T tyab false) Hl Hs) as Hr.
      pose proof (kd_watch T tyab [] (λ _, False) no_roles ts_init f_in pab e1 [FI (b "f") false] _ _ (kd_init T tyab) (kind_willing _) H1 H3 Hc Hl Hn Hs) as K.
      rewrite Hr in K. exact K. }
    pose proof (proj1 (run1_step T (run T [c1]).2 c2)) as Hs. cbn [run1 c2 fst snd] in Hs.
    pose proof (rewatch_result T f_in f_in pab (e1 .| e2) true _ _ _ Hs) as Hr.
    assert (direct (role_watch no_roles pab [FI (b "f") false] e1) pab ≠ 0) as Hd by (cbn [role_watch direct]; unfold orl; rewrite decide_True by left; done).
    pose proof (kd_rewatch T tyab _ _ _ _ f_in f_in pab e1 (e1 .| e2) _ _ _ _ K (kind_willing _) (kind_willing _) H7 H9 Hc Hl Hn Hl Hn Hd Hs) as K2.
    rewrite Hr in K2. exact K2.
  - apply nrun_where. apply Forall_forall. intros x Hx. rewrite forallb_forall in Hok. apply elem_of_list_In in Hx as Hin. specialize (Hok x Hin).
    split; [|split; [exact Hok|]]; unfold two_ops in Hx; rewrite !elem_of_cons, elem_of_nil in Hx; destruct Hx as [-> |[-> |[]]]; first [apply two_nenv|done].
  - unfold no_failure. apply Forall_forall. intros [o res] Hx%elem_of_list_In. rewrite forallb_forall in Hnf. specialize (Hnf _ Hx). cbn [snd] in Hnf. clear Hx Hlog Hok. destruct o as [? [] ? ?| |]; try done. by destruct res.
Qed.
Lemma two_listed_f : two_listed pabf.
Proof. left. apply (bool_decide_unpack _). by vm_compute. Qed.
Lemma no_more E s ei n : (nr_dispatch E (st_tree s) ei).1 = [] → offered E s ei (KUser n) = 0%nat.
Proof. intros H. unfold offered. by rewrite H. Qed.
Local Ltac sys := apply two_system; [done|by vm_compute..].
Definition is_tw (o : option tw) : bool := match o with Some _ => true | None => false end.
Lemma is_tw_some o : is_tw o = true → ∃ w, o = Some w.
Proof. destruct o; [eauto|done]. Qed.
(** Nothing but [g] in the report is watched for. *)
Definition alone (T : trig) (g w ge : N) : bool :=
  forallb (λ x, (ge .& x =? 0) || (x =? g) || (w .& x =? 0)) (natives T) &&
  forallb (λ x, (ge .& x.2 =? 0) || (x.1 =? g) || (w .& x.1 =? 0)) (counterpart T).
Lemma alone_ok T g w ge : alone T g w ge = true → ∀ x, kreported T ge x → x ≠ g → w .& x = 0.
Proof.
  unfold alone. rewrite andb_true_iff, !forallb_forall. intros [H1 H2] x Hx Hne. destruct Hx as [[Hx Hz]|(f&Hf&Hz)].
  - apply elem_of_list_In in Hx. specialize (H1 _ Hx). apply orb_true_iff in H1 as [[H1|H1]%orb_true_iff|H1]; apply N.eqb_eq in H1; done.
  - apply elem_of_list_In in Hf. specialize (H2 _ Hf). apply orb_true_iff in H2 as [[H2|H2]%orb_true_iff|H2]; apply N.eqb_eq in H2; done.
Qed.
(** Channel 1 asked for Create and Write, channel 2 for Rename: the file is written to, and
    channel 1 is told. *)
Example C72_ex T : known_trig T → let P := t_plat T in let e1 := Create P .| Write P in let e2 := Rename P in
  kq_system T tyab (two_tree T e1 e2).1 (two_tree T e1 e2).2 two_listed (two_roles e1 e2) (two_trig T e1 e2) ∧
  nenv P slash (two_E T) ∧ pth "a/b" ≠ [] ∧ Forall proper (pth "a/b") ∧ proper (b "f") ∧ pabf = render slash (pth "a/b" ++ [b "f"]) ∧
  tyab pabf = false ∧ direct (two_roles e1 e2) pab = e1 .| e2 ∧ two_listed pabf ∧ (Write P, t_write T) ∈ stands T ∧
  asked P (two_tree T e1 e2).1 (pth "a/b") 1 = e1 ∧ asked P (two_tree T e1 e2).1 (pth "a/b") 2 = e2 ∧
  (∀ x, kreported T (t_write T) x → x ≠ Write P → (direct (two_roles e1 e2) pabf .| member (two_roles e1 e2) pabf) .& x = 0) ∧
  (∃ w, tw_at (two_trig T e1 e2) pabf = Some w ∧
    (trg_process T (two_trig T e1 e2) (Some false) f_in (keys_of (two_trig T e1 e2)) (ident_of T w) (t_write T)).2 = [TE pabf (Write P) false]) ∧
  (nr_dispatch (two_E T) (st_tree (two_tree T e1 e2).2) (te_info (TE pabf (Write P) false))).1 = [KUser 1] ∧
  (∃ w, tw_at (two_trig T e1 e2) pab = Some w ∧ (trg_process T (two_trig T e1 e2) (Some true) (kind (λ _, Some [FI (b "f") false; FI (b "g") true])) (keys_of (two_trig T e1 e2)) (ident_of T w) (t_write T)).2 =
    [TE (b "/a/b/g") (Create P) true]) ∧
  (nr_dispatch (two_E T) (st_tree (two_tree T e1 e2).2) (te_info (TE (b "/a/b/g") (Create P) true))).1 = [KUser 1].
Proof.
  intros HT P e1 e2. split; [subst P e1 e2; destruct HT as [-> | ->]; (apply two_system; [by (left + right)|by vm_compute..])|].
  split; [apply two_nenv|]. split; [done|]. split; [apply ab_proper|]. split; [apply ab_proper|]. split; [by vm_compute|]. split; [by vm_compute|].
  subst P e1 e2. split; [destruct HT as [-> | ->]; by vm_compute|]. split; [apply two_listed_f|]. split; [left|].
  split; [destruct HT as [-> | ->]; by vm_compute|]. split; [destruct HT as [-> | ->]; by vm_compute|]. split.
  { apply alone_ok. destruct HT as [-> | ->]; by vm_compute. }
  split.
  { destruct (is_tw_some (tw_at (two_trig T (Create (t_plat T) .| Write (t_plat T)) (Rename (t_plat T))) pabf)) as [w Hw]; [destruct HT as [-> | ->]; by vm_compute|].
    exists w. split; [done|]. destruct HT as [-> | ->]; vm_compute in Hw; apply Some_inj in Hw as <-; by vm_compute. }
  split; [destruct HT as [-> | ->]; by vm_compute|]. split; [|destruct HT as [-> | ->]; by vm_compute].
  destruct (is_tw_some (tw_at (two_trig T (Create (t_plat T) .| Write (t_plat T)) (Rename (t_plat T))) pab)) as [w Hw]; [destruct HT as [-> | ->]; by vm_compute|].
  exists w. split; [done|]. destruct HT as [-> | ->]; vm_compute in Hw; apply Some_inj in Hw as <-; by vm_compute.
Qed.
(** The directory /a/b is renamed: channel 2 is told. *)
Example C72_gone_ex T : known_trig T → let P := t_plat T in let e1 := Create P .| Write P in let e2 := Rename P in
  tyab pab = true ∧ pab = render slash (pth "a" ++ [b "b"]) ∧ (Rename P, t_rename T) ∈ stands T ∧ Rename P .& (Write P .| t_write T) = 0 ∧
  direct (two_roles e1 e2) pab = e1 .| e2 ∧ (t_write T .| t_rename T) .& (t_rename T .| t_remove T) ≠ 0 ∧
  (∀ x, kreported T (t_write T .| t_rename T) x → x ≠ Rename P → x ≠ Write P → x ≠ t_write T → (direct (two_roles e1 e2) pab .| member (two_roles e1 e2) pab) .& x = 0) ∧
  (∃ w, tw_at (two_trig T e1 e2) pab = Some w ∧
    head (trg_process T (two_trig T e1 e2) None f_in (keys_of (two_trig T e1 e2)) (ident_of T w) (t_write T .| t_rename T)).2 = Some (TE pab (Rename P) true)) ∧
  (nr_dispatch (two_E T) (st_tree (two_tree T e1 e2).2) (te_info (TE pab (Rename P) true))).1 = [KUser 2].
Proof.
  intros HT P e1 e2. subst P e1 e2. split; [by vm_compute|]. split; [by vm_compute|]. split; [right; left|]. split; [destruct HT as [-> | ->]; by vm_compute|].
  split; [destruct HT as [-> | ->]; by vm_compute|]. split; [destruct HT as [-> | ->]; by vm_compute|]. split.
  { intros x Hx N1 N2 N3. destruct (decide (x = Write (t_plat T))) as [|N4]; [done|]. revert x Hx N1 N2 N3 N4.
    assert (forallb (λ x, (x =? Rename (t_plat T)) || (x =? Write (t_plat T)) || (x =? t_write T) ||
      ((direct (two_roles (Create (t_plat T) .| Write (t_plat T)) (Rename (t_plat T))) pab .| member (two_roles (Create (t_plat T) .| Write (t_plat T)) (Rename (t_plat T))) pab) .& x =? 0)) (natives T ++ (counterpart T).*1) = true) as HF
      by (destruct HT as [-> | ->]; by vm_compute).
    rewrite forallb_forall in HF. intros x Hx N1 N2 N3 _. assert (x ∈ natives T ++ (counterpart T).*1) as Hin.
    { apply elem_of_app. destruct Hx as [[? _]|(f&Hf&_)]; [by left|right]. apply elem_of_list_fmap. by exists (x, f). }
    apply elem_of_list_In in Hin. specialize (HF x Hin). rewrite !orb_true_iff, !N.eqb_eq in HF. tauto. }
  split; [|destruct HT as [-> | ->]; by vm_compute].
  destruct (is_tw_some (tw_at (two_trig T (Create (t_plat T) .| Write (t_plat T)) (Rename (t_plat T))) pab)) as [w Hw]; [destruct HT as [-> | ->]; by vm_compute|].
  exists w. split; [done|]. destruct HT as [-> | ->]; vm_compute in Hw; apply Some_inj in Hw as <-; by vm_compute.
Qed.
(** "Each of them is dispatched separately" (/repo/notify.go:47-49) does not hold.  What
    happened to a file until the monitor gets to it is one report, which makes one event, and
    only channels that asked for all of it are told.  Channel 1 asked for Write, channel 2 for
    Remove; the file is written to and removed: neither is told anything. *)
Definition lost (T : trig) (e1 e2 ge : N) : Prop :=
  ∃ tr s L r ts E w A ord evn ts' e,
    kq_system T tyab tr s L r ts ∧ nenv (t_plat T) slash E ∧ L pabf ∧ tw_at ts pabf = Some w ∧
    asked (t_plat T) tr (pth "a/b") 1 = e1 ∧ asked (t_plat T) tr (pth "a/b") 2 = e2 ∧
    tstep T ts (TEvent None A ord (ident_of T w) ge evn) ts' ∧ evn = [TE pabf e false] ∧ incl_ev e1 e ∧ incl_ev e2 e ∧
    ∀ n, offered E s (te_info (TE pabf e false)) (KUser n) = 0%nat.
Lemma lost_intro T e1 e2 ge : known_trig T → user_evb (t_plat T) e1 && user_evb (t_plat T) e2 = true → user_evb (t_plat T) (e1 .| e2) = true →
  forallb (λ x, nop_okb (t_plat T) x.2) (two_ops T e1 e2) = true → forallb (λ x, match x.2 with NonRec.ROk => true | _ => false end) (two_tree T e1 e2).1 = true →
  st_log (two_tree T e1 e2).2 = [(WWatch pab e1, true); (WRewatch pab e1 (e1 .| e2), true)] →
  asked (t_plat T) (two_tree T e1 e2).1 (pth "a/b") 1 = e1 → asked (t_plat T) (two_tree T e1 e2).1 (pth "a/b") 2 = e2 →
  match tw_at (two_trig T e1 e2) pabf with
  | Some w => (trg_process T (two_trig T e1 e2) None f_in (keys_of (two_trig T e1 e2)) (ident_of T w) ge).2 = [TE pabf (e1 .| e2) false]
  | None => False
  end →
  (nr_dispatch (two_E T) (st_tree (two_tree T e1 e2).2) (te_info (TE pabf (e1 .| e2) false))).1 = [] → lost T e1 e2 ge.
Proof.
  intros HT H1 H2 H3 H4 H5 A1 A2 Hp Hd. destruct (tw_at (two_trig T e1 e2) pabf) as [w|] eqn:Hw; [|destruct Hp].
  exists (two_tree T e1 e2).1, (two_tree T e1 e2).2, two_listed, (two_roles e1 e2), (two_trig T e1 e2), (two_E T), w, f_in, (keys_of (two_trig T e1 e2)).
  pose (x := trg_process T (two_trig T e1 e2) None f_in (keys_of (two_trig T e1 e2)) (ident_of T w) ge). exists x.2, x.1, (e1 .| e2).
  split; [by apply two_system|]. split; [apply two_nenv|]. split; [apply two_listed_f|]. split; [done|]. split; [done|]. split; [done|]. split.
  { pose proof (proj1 (run1_step T (two_trig T e1 e2) (XEvent None f_in (ident_of T w) ge))) as Hs. cbn [run1] in Hs. unfold run_event in Hs. cbn [fst snd] in Hs. exact Hs. }
  split; [exact Hp|]. split; [|split].
  - intros i Hi. apply has_lor. by left.
  - intros i Hi. apply has_lor. by right.
  - intros n. by apply no_more.
Qed.
Theorem C72_merged_refuted T : known_trig T → lost T (Write (t_plat T)) (Remove (t_plat T)) (t_write T .| t_remove T).
Proof. intros HT. apply lost_intro; [done|destruct HT as [-> | ->]; by vm_compute..]. Qed.
(** Neither is anybody told of a single write when one channel asked for Write and another for
    the native event that stands for it. *)
Theorem C72_both_names_refuted T : known_trig T → lost T (Write (t_plat T)) (t_write T) (t_write T).
Proof. intros HT. apply lost_intro; [done|destruct HT as [-> | ->]; by vm_compute..]. Qed.

Print Assumptions C72_only_registered_partial.
Print Assumptions C72_delivered_partial.
Print Assumptions C72_delivered_self_partial.
Print Assumptions C72_recursive_partial.
Print Assumptions C72_created_partial.
Print Assumptions C72_directory_gone_partial.
Print Assumptions C72_merged_refuted.
Print Assumptions C72_both_names_refuted.
