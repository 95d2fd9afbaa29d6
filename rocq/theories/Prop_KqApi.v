(** * Property theorem C75: kqueue and FEN, from the arguments of Watch and the reports of the OS to the channels *)
From Verif Require Import Base Event Watchpoint WatchpointFacts Paths PathsFacts Loop LoopFacts
  Node NodeFacts SpecTree NonRec SpecNonRec SpecNonRecOS SpecOS NonRecCov NonRecRun Rec SpecRec Prop_Basics Prop_NonRec
  Clean SpecClean CleanFacts Prop_Clean Api SpecApi ApiFacts Prop_Api SpecNrApi NrApiFacts
  Trigger SpecTrigger TriggerFacts TriggerTab TriggerRoles TriggerEx SpecKq KqFacts Prop_Kq SpecKqApi.
From Verif Require Prop_Linux Prop_LinuxApi.
Local Open Scope N_scope.

Section sys.
Context (T : trig) (HT : known_trig T) (ty : str → bool).
Notation P := (t_plat T).
Context (tr : atrace) (D : gset path) (s : st) (L : str → Prop) (r : roles) (ts : tstate) (Hsys : kq_api T ty tr D s L r ts).
Lemma api_system : ∃ trs, Forall2 (trans P) tr trs ∧ fexec P slash (concat trs) D s ∧ kq_system T ty (concat trs) s L r ts.
Proof.
  destruct Hsys as [Hx Hnr Hdr]. destruct (lexec_fexec P _ _ _ Hx) as (trs&Ht&Hf). exists trs. split_and!; try done.
  split; try done; [by apply (fexec_where P slash) in Hf|by eapply trans_no_failure].
Qed.
Lemma proper_nonempty d : Forall proper d → [] ∉ d.
Proof. intros Hp H. rewrite Forall_forall in Hp. by destruct (Hp [] H). Qed.

(** The OS reports something about the file [c] of directory [d]: at most one event is made
    of it; it carries the file's path and says exactly what of the report is watched for, and it
    is offered exactly to the channels that passed Watch a path of the file or of the directory, or
    "..." on a path of a directory above, naming all of what the event says. *)
Theorem C75_only_partial E d c w n st A ord ge evn ts' e :
  nenv P slash E → d ≠ [] → Forall proper d → proper c → let q := render slash (d ++ [c]) in
  tw_at ts q = Some w → ty q = false → tstep T ts (TEvent st A ord (ident_of T w) ge evn) ts' → e ∈ evn →
  evn = [e] ∧ te_p e = q ∧ te_dir e = false ∧ te_e e ≠ 0 ∧ (∀ i, has (te_e e) i ↔ ∃ x, kreported T ge x ∧ (direct r q .| member r q) .& x ≠ 0 ∧ has x i) ∧
  ((0 < offered E s (te_info e) (KUser n))%nat ↔ reaches P tr n (te_e e) d c).
Proof.
  intros HE Hd0 Hd Hc q Hw Hty Hs He. destruct api_system as (trs&Ht&Hf&Hks). destruct (trig_ok T HT) as [HP HW].
  destruct (C72_only_registered_partial T HT ty (concat trs) s L r ts E d c w n st A ord ge evn ts' e Hks HE Hd0 Hd Hc Hw Hty Hs He) as (H1&H2&H3&H0&H4&H5).
  split_and!; try done. rewrite H5, <-deliveries_pos. assert (disj_ev (te_e e) (internal P)) as Hint.
  { intros j (x&Hx&_&Hj)%H4 Hi. assert (∃ f, (x, f) ∈ stands T) as [f Hf'].
    { destruct Hx as [[Hx _]|(f&Hf'&_)]; [exists x|exists f]; unfold stands; apply elem_of_app; [right|by left]. apply elem_of_list_fmap. by exists x. }
    destruct (stands_bits T x f HT Hf') as (_&Hdi&_). by apply (Hdi j). }
  apply (reaches_deliveries P HP tr trs); try done; [eapply lexec_user, Hsys|by apply Prop_Linux.proper_upath|by destruct Hc].
Qed.
(** A channel asked for the event [g] in directory [d], which has not been reported gone, and
    the file [c] was in the directory's last listing: the OS is asked for what [g] stands for,
    and when it reports this with nothing else anybody asked for there, the event is offered
    to the channel. *)
Theorem C75_delivered_partial E d c n g f ge :
  nenv P slash E → d ≠ [] → Forall proper d → proper c → let q := render slash (d ++ [c]) in
  ty q = false → direct r (render slash d) ≠ 0 → L q → (g, f) ∈ stands T → asks_in P tr D n d g →
  (∃ w m, tw_at ts q = Some w ∧ reg_at T ts q = Some m ∧ (incl_ev f m ∨ incl_ev f (exceptions T))) ∧
  (ge .& f ≠ 0 → (∀ x, kreported T ge x → x ≠ g → (direct r q .| member r q) .& x = 0) →
    ∀ w st A ord evn ts', tw_at ts q = Some w → tstep T ts (TEvent st A ord (ident_of T w) ge evn) ts' →
      evn = [TE q g false] ∧ (0 < offered E s (te_info (TE q g false)) (KUser n))%nat).
Proof.
  intros HE Hd0 Hd Hc q Hty Hr HL Hg Ha. destruct api_system as (trs&Ht&Hf&Hks). destruct (stands_bits T g f HT Hg) as (H0&Hgi&_).
  destruct Ha as [Ha|(HdD&a&Had&Hb)].
  - eapply C72_delivered_partial; try done. apply (all_sub P tr trs); try done. by apply proper_nonempty.
  - destruct (below_force P tr trs n a g) as (e&Hfo&He); try done.
    + by eapply lexec_user, Hsys.
    + intros fs cwd p o l r'. by eapply lexec_root, Hsys.
    + by eapply C72_recursive_partial.
Qed.
(** The same when the channel passed Watch a path of the file itself. *)
Theorem C75_self_partial E d c n g f ge :
  nenv P slash E → d ≠ [] → Forall proper d → proper c → let q := render slash (d ++ [c]) in
  ty q = false → direct r q ≠ 0 → (g, f) ∈ stands T → subscribed_all P tr n (d ++ [c]) g →
  (∃ w m, tw_at ts q = Some w ∧ reg_at T ts q = Some m ∧ (incl_ev f m ∨ incl_ev f (exceptions T))) ∧
  (ge .& f ≠ 0 → (∀ x, kreported T ge x → x ≠ g → (direct r q .| member r q) .& x = 0) →
    ∀ w st A ord evn ts', tw_at ts q = Some w → tstep T ts (TEvent st A ord (ident_of T w) ge evn) ts' →
      evn = [TE q g false] ∧ (0 < offered E s (te_info (TE q g false)) (KUser n))%nat).
Proof.
  intros HE Hd0 Hd Hc q Hty Hr Hg Ha. destruct api_system as (trs&Ht&Hf&Hks). destruct (stands_bits T g f HT Hg) as (H0&Hgi&_).
  eapply C72_delivered_self_partial; try done. apply (all_sub P tr trs); try done; [by destruct d|].
  apply proper_nonempty, Forall_app. split; [done|by apply Forall_singleton].
Qed.
(** A write to the directory [d] is reported: a Create is made for exactly the entries not
    known before, and offered to every channel that asked for Create there. *)
Theorem C75_created_partial E d n st A ord w ls ge evn ts' :
  nenv P slash E → d ≠ [] → Forall proper d → let p := render slash d in
  ty p = true → direct r p ≠ 0 → tw_at ts p = Some w → ge .& (t_rename T .| t_remove T) = 0 → ge .& t_write T ≠ 0 →
  willing A → a_ls A p = Some ls → names_ok ls → NoDup (fi_name <$> ls) → tstep T ts (TEvent st A ord (ident_of T w) ge evn) ts' →
  (∀ e, e ∈ evn → ∃ fi, fi ∈ ls ∧ tw_at ts (join p (fi_name fi)) = None ∧ e = TE (join p (fi_name fi)) (Create P) (fi_dir fi)) ∧
  (subscribed_all P tr n d (Create P) →
    evn = (λ fi, TE (join p (fi_name fi)) (Create P) (fi_dir fi)) <$> new_entries ts p ls ∧
    (∀ e, e ∈ evn → (0 < offered E s (te_info e) (KUser n))%nat) ∧
    ∃ m, reg_at T ts p = Some m ∧ incl_ev (t_write T) m).
Proof.
  intros HE Hd0 Hd p Hty Hr Hw Hge Hwr HA Hls Hno Hnd Hs. destruct api_system as (trs&Ht&Hf&Hks).
  destruct (C72_created_partial T HT ty (concat trs) s L r ts E d n st A ord w ls ge evn ts' Hks HE Hd0 Hd Hty Hr Hw Hge Hwr HA Hls Hno Hnd Hs) as [H1 H2].
  split; [done|]. intros Ha. apply H2. apply (all_sub P tr trs); try done; [by apply proper_nonempty|].
  destruct HT as [-> | ->]; apply land_zero_disj; by vm_compute.
Qed.
(** The directory [c] of [d] is removed or renamed: the channels that asked for this on it or
    in [d] are told. *)
Theorem C75_directory_gone_partial E d c n g f ge w st A ord evn ts' :
  nenv P slash E → d ≠ [] → Forall proper d → proper c → let p := render slash (d ++ [c]) in
  ty p = true → (g, f) ∈ stands T → disj_ev g (Write P .| t_write T) →
  (direct r p ≠ 0 ∧ subscribed_all P tr n (d ++ [c]) g) ∨ (direct r (render slash d) ≠ 0 ∧ L p ∧ subscribed_all P tr n d g) →
  tw_at ts p = Some w → ge .& (t_rename T .| t_remove T) ≠ 0 → ge .& f ≠ 0 →
  (∀ x, kreported T ge x → x ≠ g → x ≠ Write P → x ≠ t_write T → (direct r p .| member r p) .& x = 0) →
  tstep T ts (TEvent st A ord (ident_of T w) ge evn) ts' →
  ∃ rest, evn = TE p g true :: rest ∧ (0 < offered E s (te_info (TE p g true)) (KUser n))%nat.
Proof.
  intros HE Hd0 Hd Hc p Hty Hg Hgw Ha Hw Hgone Hge Ho Hs. destruct api_system as (trs&Ht&Hf&Hks). destruct (stands_bits T g f HT Hg) as (H0&Hgi&_).
  eapply (C72_directory_gone_partial T HT ty (concat trs) s L r ts E d c n g f ge); try done.
  destruct Ha as [[Hr Ha]|(Hr&HL&Ha)]; [left; split; [done|]|right; split_and!; [done|done|]].
  - apply (all_sub P tr trs); try done; [by destruct d|]. apply proper_nonempty, Forall_app. split; [done|by apply Forall_singleton].
  - apply (all_sub P tr trs); try done. by apply proper_nonempty.
Qed.
End sys.

(** ** Instance *)
(** In directory /d channel 1 watches the link "abs", which leads to /d/e, for Write; in it is the file f. *)
Definition de : path := [b "d"; b "e"]. Definition pde : str := b "/d/e". Definition pdef : str := b "/d/e/f".
Definition f_here : answers := kind (λ q, if decide (q = pde) then Some [FI (b "f") false] else None).
Definition tyde (q : str) : bool := bool_decide (q = pde).
Definition one_E (T : trig) : env := mkenv (t_plat T) dirs1 allok.
Definition one_call (T : trig) : acall := AWatch fs1 (Some (b "/d")) (b "abs") (Some 1%positive) [Write (t_plat T)].
Definition one_tr (T : trig) : atrace := [(one_call T, ORet NonRec.ROk)].
Definition one_s (T : trig) : st := (astep nr_api (one_E T) init_st (one_call T)).1.
Definition one_ts (T : trig) : tstate := (run T [XWatch (Some true) f_here pde (Write (t_plat T))]).2.
Definition one_r (T : trig) : roles := role_watch no_roles pde [FI (b "f") false] (Write (t_plat T)).
Definition one_L : str → Prop := relisted (λ _, False) pde [FI (b "f") false].
Lemma one_den : denotes fs1 (Some (b "/d")) (b "abs") false de.
Proof.
  apply Prop_LinuxApi.clean_denotes; [apply fs1_ok|apply fs1_ok|by intros w [= <-]|done|apply (bool_decide_unpack _); by vm_compute|apply (bool_decide_unpack _); by vm_compute|by vm_compute].
Qed.
Lemma de_proper : Forall proper de ∧ proper (b "f").
Proof. split; [repeat constructor|]; apply properb; by vm_compute. Qed.
Lemma one_system T : known_trig T → kq_api T tyde (one_tr T) dirs1 (one_s T) one_L (one_r T) (one_ts T).
Proof.
  intros HT. destruct (trig_ok T HT) as [HP HW]. split.
  - apply (lx_call (t_plat T) [] dirs1 init_st (one_E T) (one_call T)); [constructor; apply dirs1_ok|apply mkenv_nenv, dirs1_ok|done| |].
    + intros _. split_and!; [|split|apply mkenv_fs, dirs1_ok].
      * split_and!; [apply fs1_ok|apply fs1_ok|by intros w [= <-]|]. apply Forall_singleton.
        destruct HT as [-> | ->]; (split; [by vm_compute|apply land_zero_disj; by vm_compute]).
      * exists (Write (t_plat T)). split; [left|]. by destruct HT as [-> | ->].
      * intros [x Hx]. exfalso. destruct one_den as (_&_&_&Hn&_). by apply (Hn eq_refl x).
    + destruct HT as [-> | ->]; by vm_compute.
  - apply Forall_singleton. intros fs' cwd p n l _. right. by intros r' [= <-].
  - assert (st_log (one_s T) = [(WWatch pde (Write (t_plat T)), true)]) as -> by (destruct HT as [-> | ->]; by vm_compute).
    assert (listing tyde f_here pde [FI (b "f") false]) as Hl by (split; [by vm_compute|apply Forall_singleton; by vm_compute]).
    pose proof (proj1 (run1_step T ts_init (XWatch (Some true) f_here pde (Write (t_plat T))))) as Hs. cbn [run1 fst snd] in Hs.
    pose proof (watch_result T tyde f_here pde (Write (t_plat T)) [FI (b "f") false] ts_init _ no_roles _ (kind_willing _) (ord_init T tyde false) Hl Hs) as Hr.
    assert (Write (t_plat T) ≠ 0) as H0 by (by destruct HT as [-> | ->]). assert (u32 (Write (t_plat T))) as Hu by (by destruct HT as [-> | ->]).
    assert (cleanp pde) as Hc by (exists de; split; [apply de_proper|by vm_compute]).
    assert (names_ok [FI (b "f") false]) as Hn by (apply Forall_singleton; apply de_proper).
    pose proof (kd_watch T tyde [] (λ _, False) no_roles ts_init f_here pde (Write (t_plat T)) [FI (b "f") false] _ _ (kd_init T tyde) (kind_willing _) H0 Hu Hc Hl Hn Hs) as K.
    rewrite Hr in K. exact K.
Qed.
Example C75_hyps T : known_trig T → let P := t_plat T in
  kq_api T tyde (one_tr T) dirs1 (one_s T) one_L (one_r T) (one_ts T) ∧ nenv P slash (one_E T) ∧
  de ≠ [] ∧ Forall proper de ∧ proper (b "f") ∧ pdef = render slash (de ++ [b "f"]) ∧ tyde pdef = false ∧ direct (one_r T) pde ≠ 0 ∧ one_L pdef ∧
  (Write P, t_write T) ∈ stands T ∧ asks_in P (one_tr T) dirs1 1 de (Write P) ∧ t_write T .& t_write T ≠ 0 ∧
  (∀ x, kreported T (t_write T) x → x ≠ Write P → (direct (one_r T) pdef .| member (one_r T) pdef) .& x = 0) ∧
  (∃ w, tw_at (one_ts T) pdef = Some w ∧
    (trg_process T (one_ts T) (Some false) f_here (keys_of (one_ts T)) (ident_of T w) (t_write T)).2 = [TE pdef (Write P) false]) ∧
  (nr_dispatch (one_E T) (st_tree (one_s T)) (te_info (TE pdef (Write P) false))).1 = [KUser 1].
Proof.
  intros HT P. subst P. split; [by apply one_system|]. split; [apply mkenv_nenv, dirs1_ok|]. split; [done|]. split; [apply de_proper|]. split; [apply de_proper|].
  split; [by vm_compute|]. split; [by vm_compute|]. split; [by destruct HT as [-> | ->]|]. split; [left; apply (bool_decide_unpack _); by vm_compute|]. split; [left|].
  split.
  { left. intros i Hi. exists [], [], fs1, (Some (b "/d")), (b "abs"), false, [Write (t_plat T)]. split_and!; [done|apply one_den| |].
    - exists (Write (t_plat T)). split; [left|done].
    - split; [intros r Hr|intros p r Hr]; by apply elem_of_nil in Hr. }
  split; [by destruct HT as [-> | ->]|]. split; [apply alone_ok; destruct HT as [-> | ->]; by vm_compute|]. split; [|destruct HT as [-> | ->]; by vm_compute].
  destruct (is_tw_some (tw_at (one_ts T) pdef)) as [w Hw]; [destruct HT as [-> | ->]; by vm_compute|].
  exists w. split; [done|]. destruct HT as [-> | ->]; vm_compute in Hw; apply Some_inj in Hw as <-; by vm_compute.
Qed.

Print Assumptions C75_only_partial.
Print Assumptions C75_delivered_partial.
Print Assumptions C75_self_partial.
Print Assumptions C75_created_partial.
Print Assumptions C75_directory_gone_partial.
Print Assumptions C75_hyps.
