(** * RecRun: running histories of the recursive tree (used to exhibit instances of
    the property theorems and counterexamples) *)
From Verif Require Import Base Event Watchpoint WatchpointFacts Paths PathsFacts Loop LoopFacts
  Node NodeFacts SpecTree NonRec SpecNonRec NonRecRun SpecOS Rec SpecRec.
Local Open Scope N_scope.

Notation backslash := "\"%char.
Definition novol (_ : str) : Prop := False.
Definition drive (v : str) : Prop := v = b "C:".
Definition alt {A} (n : nat) (l : list A) : list A := if Nat.even n then l else reverse l.
(** macOS, and Windows with the one volume C:; [W] decides the watcher calls. *)
Definition menv (W : wlog → wcall → bool) : env :=
  Env fsevents slash (λ _, []) W (λ n l, alt n l) (λ n l, alt n l) (λ _ _, None) 0.
Definition wenv (W : wlog → wcall → bool) : env :=
  Env readdcw backslash (λ s, take 2 s) W (λ n l, alt n l) (λ n l, alt n l) (λ _ _, None) 0.
Lemma alt_perm {A} n (l : list A) : alt n l ≡ₚ l.
Proof. unfold alt. destruct (Nat.even n); [done|]. by rewrite reverse_Permutation. Qed.
Lemma menv_ok W : renv fsevents slash false novol (menv W).
Proof. split; [done|done|done|]. split; [intros; apply alt_perm..|done]. Qed.
Lemma wenv_ok W : renv readdcw backslash true drive (wenv W).
Proof.
  split; [done|done| |split; [intros; apply alt_perm..|done]].
  intros p (_&v&cs&->&->&_). done.
Qed.

(** The watcher that accepts exactly the calls allowed by its documentation. *)
Definition legalb (P : platform) (m : ostab) (c : wcall) : bool :=
  let ev_ok e := negb (e =? 0) && (e .& internal P =? 0) in
  match c with
  | WWatch p e | WRecWatch p e => bool_decide (m !! p = None) && ev_ok e
  | WUnwatch p | WRecUnwatch p => bool_decide (is_Some (m !! p))
  | WRewatch p old new => bool_decide (fst <$> m !! p = Some old) && bool_decide (old ≠ new) && ev_ok new
  | WRecRewatch p q old new =>
      bool_decide (fst <$> m !! p = Some old) && ev_ok new && (bool_decide (p = q) || bool_decide (m !! q = None))
  end.
Lemma legalb_ok P m c : legalb P m c = true ↔ legal P m c.
Proof.
  assert (∀ e, negb (e =? 0) && (e .& internal P =? 0) = true ↔ e ≠ 0 ∧ disj_ev e (internal P)) as He.
  { intros e. by rewrite andb_true_iff, negb_true_iff, N.eqb_neq, N.eqb_eq, land_zero_disj. }
  unfold legalb, legal.
  destruct c as [? ?|?|? ? ?|? ?|?|p q ? ?]; rewrite ?andb_true_iff, ?orb_true_iff, ?andb_true_iff, ?bool_decide_eq_true, <-?He, ?andb_true_iff; try done; try tauto.
  destruct (decide (p = q)); naive_solver.
Qed.
Definition lawful (P : platform) (log : wlog) (c : wcall) : bool := legalb P (os_watches log) c.
Lemma lawful_obliging E : e_W E = lawful (e_plat E) → obliging (e_plat E) E.
Proof. intros H log c Hl. rewrite H. by apply legalb_ok. Qed.

Definition all_okb (tr : list (nop * result)) : bool := forallb (λ x, match x.2 with ROk => true | _ => false end) tr.
Lemma all_okb_ok tr : all_okb tr = true → all_ok tr.
Proof.
  unfold all_okb. rewrite forallb_forall. intros H. apply Forall_forall. intros [o r] Hx.
  specialize (H (o, r)). rewrite <-elem_of_list_In in H. specialize (H Hx). simpl in H. by destruct r.
Qed.

Section run.
Context (P : platform) (sepc : ascii) (w : bool).
Fixpoint rrun (s : st) (l : list (env * nop)) : list (nop * result) * st :=
  match l with
  | [] => ([], s)
  | (E, o) :: l => let '(s', r) := rstep sepc w E s o in
      let '(tr, s'') := rrun s' l in ((o, r) :: tr, s'')
  end.
Definition rpathb (p : path) : bool :=
  bool_decide ([] ∉ p) &&
  if w then match p with v :: cs => bool_decide (v = b "C:") && bool_decide (cs ≠ []) && bool_decide (Forall (comp_ok sepc) cs) | [] => false end
  else bool_decide (p ≠ []) && bool_decide (Forall (comp_ok sepc) p).
Definition rop_okb (o : nop) : bool :=
  match o with
  | NWatch p _ _ e => rpathb p && (e <? 2 ^ 32) && (e .& internal P =? 0)
  | NStop _ => true
  | NEvent _ _ => false
  end.
Notation vols := (if w then drive else novol).
Lemma rpathb_ok p : rpathb p = true → rpath sepc w vols p.
Proof.
  unfold rpathb, rpath. rewrite andb_true_iff, bool_decide_eq_true. intros [H1 H2]. split; [done|]. destruct w.
  - destruct p as [|v cs]; [done|]. rewrite !andb_true_iff, !bool_decide_eq_true in H2. destruct H2 as [[? ?] ?]. by exists v, cs.
  - rewrite !andb_true_iff, !bool_decide_eq_true in H2. by destruct H2.
Qed.
Lemma rop_okb_ok o : rop_okb o = true → rop_ok P sepc w vols o.
Proof.
  destruct o as [p isrec n e|n|ev p]; simpl; [|done|done].
  rewrite !andb_true_iff, N.ltb_lt, N.eqb_eq. intros [[? ?] Hl].
  split_and!; [by apply rpathb_ok|done|]. by apply land_zero_disj.
Qed.
(** Reports, and whether a registration is covered. *)
Definition rreportedb (ei : event_info) (d : path) (c : str) : bool :=
  negb (ei_event ei =? 0) && (ei_event ei .& internal P =? 0) && rpathb d && bool_decide (c ≠ []) &&
  bool_decide (comp_ok sepc c) && bool_decide (ei_path ei = nameof sepc w (d ++ [c])).
Lemma rreportedb_ok ei d c : rreportedb ei d c = true → rreported P sepc w vols ei d c.
Proof.
  unfold rreportedb. rewrite !andb_true_iff, !bool_decide_eq_true, negb_true_iff, N.eqb_neq, N.eqb_eq.
  intros [[[[[? Hl] Hd] ?] ?] ?]. split_and!; try done; [by apply land_zero_disj|by apply rpathb_ok].
Qed.
Definition os_coversb (m : ostab) (p : path) (e : N) (isrec : bool) : bool :=
  existsb (λ i, match m !! nameof sepc w (take i p) with
    | Some (x, k) => (e .& x =? e) && (k || (bool_decide (take i p = p) && negb isrec))
    | None => false
    end) (seq 0 (S (length p))).
Lemma os_coversb_no vs m p e isrec : os_coversb m p e isrec = false → ¬ os_covers sepc w vs m p e isrec.
Proof.
  intros Hb (q&x&k&_&[r ->]&Hl&Hi&Hk). apply not_true_iff_false in Hb. apply Hb. unfold os_coversb. apply existsb_exists.
  exists (length q). split; [apply in_seq; rewrite app_length; lia|]. rewrite take_app, Hl, andb_true_iff, N.eqb_eq. split.
  - clear - Hi. bits.
  - destruct k; [done|]. destruct (decide (q = q ++ r)) as [Heq|Hne].
    + rewrite bool_decide_true by done. destruct isrec; [|done]. by rewrite Hk by auto.
    + assert (false = true); [|done]. apply Hk. by left.
Qed.
(** No operation of the run panics. *)
Fixpoint calm (s : st) (l : list (env * nop)) : bool :=
  match l with
  | [] => true
  | (E, o) :: l => let s' := (rstep sepc w E s o).1 in negb (st_panic s') && calm s' l
  end.
Definition good_rop (x : env * nop) : Prop := renv P sepc w vols x.1 ∧ rop_okb x.2 = true.
Lemma rrun_from l : ∀ tr s, Forall good_rop l → calm s l = true → rexec P sepc w vols tr s →
  rexec P sepc w vols (tr ++ (rrun s l).1) (rrun s l).2.
Proof.
  induction l as [|[E o] l IH]; intros tr s Hl Hc Hx; simpl; [by rewrite app_nil_r|].
  apply Forall_cons in Hl as [(HE&Ho) Hl]. cbn [calm fst snd] in *.
  destruct (rstep sepc w E s o) as [s' r] eqn:Hs. cbn [fst] in Hc. apply andb_true_iff in Hc as [Hp Hc].
  specialize (IH (tr ++ [(o, r)]) s' Hl Hc).
  destruct (rrun s' l) as [tr' s'']. simpl in *. rewrite <-app_assoc in IH. apply IH.
  eapply rexec_step; [done|done|by apply rop_okb_ok|done|by apply negb_true_iff].
Qed.
Lemma rrun_rexec l : Forall good_rop l → calm init_st l = true → rexec P sepc w vols (rrun init_st l).1 (rrun init_st l).2.
Proof. intros Hl Hc. apply (rrun_from l [] init_st); [done|done|constructor]. Qed.
End run.
