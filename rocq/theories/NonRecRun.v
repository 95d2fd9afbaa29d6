(** * NonRecRun: running histories of the non-recursive tree on concrete filesystems
    (used to exhibit instances of the property theorems) *)
From Verif Require Import Base Event Watchpoint WatchpointFacts Paths PathsFacts Loop LoopFacts
  Node NodeFacts SpecTree NonRec SpecNonRec SpecNonRecOS.
Local Open Scope N_scope.

Notation slash := "/"%char.

(** ** A filesystem given by its set of directories *)
Definition child_of (p q : path) : option str :=
  match last q with
  | Some c => if decide (q = p ++ [c]) then Some c else None
  | None => None
  end.
Definition dirs_readdir (D : gset path) (_ : nat) (d : str) : option (list dirent) :=
  match list_find (λ p, render slash p = d) (elements D) with
  | Some (_, p) => Some ((λ c, Dirent c true false) <$> omap (child_of p) (elements D))
  | None => None
  end.
(** Map iteration alternates between two orders; [W] decides the watcher calls. *)
Definition mkenv (P : platform) (D : gset path) (W : wlog → wcall → bool) : env :=
  Env P slash (λ _, []) W (λ n l, if Nat.even n then l else reverse l) (λ n l, if Nat.even n then l else reverse l)
    (dirs_readdir D) (S (size D)).
Definition allok (_ : wlog) (_ : wcall) : bool := true.
Lemma reliable_allok P D : reliable (mkenv P D allok).
Proof. done. Qed.

Lemma child_of_spec p q c : child_of p q = Some c ↔ q = p ++ [c].
Proof.
  unfold child_of. split.
  - destruct (last q) as [c'|]; [|done]. case_decide; [|done]. by intros [= <-].
  - intros ->. rewrite last_snoc. by rewrite decide_True.
Qed.
Lemma mkenv_nenv P D W : dirs_ok slash D → nenv P slash (mkenv P D W).
Proof.
  intros HD. split; [done|done|done|]. split.
  - intros n l. simpl. destruct (Nat.even n); [done|]. by rewrite reverse_Permutation.
  - intros n l. simpl. destruct (Nat.even n); [done|]. by rewrite reverse_Permutation.
  - intros n d l. simpl. unfold dirs_readdir. destruct (list_find _ _) as [[i p]|]; [|done]. intros [= <-].
    apply Forall_fmap, Forall_forall. intros c (q&Hq&Hc)%elem_of_list_omap. apply child_of_spec in Hc as ->.
    apply elem_of_elements in Hq. apply HD in Hq as (_&Hok&Hn). split; simpl.
    + intros ->. apply Hn. set_solver.
    + apply Forall_app in Hok as [_ Hok]. by inversion_clear Hok.
Qed.
Lemma omap_child_NoDup p l : NoDup l → NoDup (omap (child_of p) l).
Proof.
  induction 1 as [|q l Hq Hl IH]; [constructor|]. simpl. destruct (child_of p q) as [c|] eqn:Ec; [|done].
  constructor; [|done]. intros (q'&Hq'&Hc')%elem_of_list_omap. apply child_of_spec in Ec, Hc'. congruence.
Qed.
Lemma mkenv_fs P D W : dirs_ok slash D → fs_env slash D (mkenv P D W).
Proof.
  intros HD. split_and!; [| |simpl; lia].
  - intros i p Hp. simpl. unfold dirs_readdir.
    destruct (list_find _ _) as [[j p']|] eqn:Ef.
    + apply list_find_Some in Ef as (Hl&Hr&_). apply elem_of_list_lookup_2, elem_of_elements in Hl.
      assert (p' = p) as ->.
      { apply (render_inj slash); [by apply HD in Hl as (_&?&_)|by apply HD in Hp as (_&?&_)|done]. }
      eexists. split; [done|]. split.
      * assert (∀ l : list str, de_name <$> ((λ c, Dirent c true false) <$> l) = l) as Hid.
        { intros l. induction l as [|c l IH]; [done|]. rewrite !fmap_cons. by rewrite IH. }
        rewrite Hid. apply omap_child_NoDup, NoDup_elements.
      * intros c. split.
        -- intros Hc. exists (Dirent c true false). split_and!; [|done..]. apply elem_of_list_fmap. exists c. split; [done|].
           apply elem_of_list_omap. exists (p ++ [c]). split; [by apply elem_of_elements|]. by apply child_of_spec.
        -- intros (de&(c'&->&(q&Hq&Hc)%elem_of_list_omap)%elem_of_list_fmap&_&_&<-). apply child_of_spec in Hc as ->.
           by apply elem_of_elements in Hq.
    + exfalso. apply list_find_None in Ef. rewrite Forall_forall in Ef. by apply (Ef p); [apply elem_of_elements|].
  - intros i p Hp Hn. simpl. unfold dirs_readdir. destruct (list_find _ _) as [[j p']|] eqn:Ef; [|done].
    exfalso. apply list_find_Some in Ef as (Hl&Hr&_). apply elem_of_list_lookup_2, elem_of_elements in Hl. apply Hn.
    assert (p' = p) as <-; [|done]. apply (render_inj slash); [by apply HD in Hl as (_&?&_)|by destruct Hp as (_&?&_)|done].
Qed.

(** ** Running a list of operations *)
Fixpoint nrun (s : st) (l : list (env * nop)) : list (nop * result) * st :=
  match l with
  | [] => ([], s)
  | (E, o) :: l => let '(s', r) := nstep slash E s o in
      let '(tr, s'') := nrun s' l in ((o, r) :: tr, s'')
  end.
Global Instance comp_ok_dec sepc c : Decision (comp_ok sepc c).
Proof. unfold comp_ok. apply _. Defined.
Definition gpathb (p : path) : bool :=
  bool_decide (p ≠ []) && bool_decide (Forall (comp_ok slash) p) && bool_decide ([] ∉ p).
Definition nop_okb (P : platform) (o : nop) : bool :=
  match o with
  | NWatch p _ _ e => bool_decide (p ≠ []) && bool_decide (Forall (comp_ok slash) p) &&
      bool_decide ([] ∉ removelast p) && (e <? 2 ^ 32) && (e .& internal P =? 0)
  | NStop _ => true
  | NEvent _ p => gpathb p
  end.
Lemma gpathb_ok p : gpathb p = true → gpath slash p.
Proof. unfold gpathb. rewrite !andb_true_iff, !bool_decide_eq_true. intros [[? ?] ?]. by split_and!. Qed.
Lemma nop_okb_ok P o : nop_okb P o = true → nop_ok P slash o.
Proof.
  destruct o as [p isrec n e|n|ev p]; simpl; [|done|apply gpathb_ok].
  rewrite !andb_true_iff, !bool_decide_eq_true, N.ltb_lt, N.eqb_eq. intros [[[[? ?] ?] ?] Hl].
  split_and!; [by split_and!|done|]. by apply land_zero_disj.
Qed.
Definition good_op (P : platform) (Q : env → nop → Prop) (x : env * nop) : Prop :=
  nenv P slash x.1 ∧ nop_okb P x.2 = true ∧ Q x.1 x.2.
Lemma nrun_from P Q l : ∀ tr s, Forall (good_op P Q) l → nexec_where P slash Q tr s →
  nexec_where P slash Q (tr ++ (nrun s l).1) (nrun s l).2.
Proof.
  induction l as [|[E o] l IH]; intros tr s Hl Hx; simpl; [by rewrite app_nil_r|].
  apply Forall_cons in Hl as [(HE&Ho&HQ) Hl]. simpl in *.
  destruct (nstep slash E s o) as [s' r] eqn:Hs. specialize (IH (tr ++ [(o, r)]) s' Hl).
  destruct (nrun s' l) as [tr' s'']. simpl in *. rewrite <-app_assoc in IH. apply IH.
  eapply nw_step; [done|done|by apply nop_okb_ok|done|done].
Qed.
Lemma nrun_where P Q l : Forall (good_op P Q) l → nexec_where P slash Q (nrun init_st l).1 (nrun init_st l).2.
Proof. intros Hl. apply (nrun_from P Q l [] init_st); [done|constructor]. Qed.
Lemma nrun_nexec P l : Forall (good_op P (λ _ _, True)) l → nexec P slash (nrun init_st l).1 (nrun init_st l).2.
Proof. intros Hl. eapply nexec_where_nexec. by apply nrun_where. Qed.

(** Watch and Stop calls on a fixed filesystem. *)
Definition good_fs (D : gset path) (E : env) (o : nop) : Prop :=
  os_good E o ∧ fs_env slash D E ∧ match o with NEvent _ _ => False | _ => True end.
Lemma nrun_fexec_from P D l : ∀ tr s, Forall (good_op P (good_fs D)) l → fexec P slash tr D s →
  fexec P slash (tr ++ (nrun s l).1) D (nrun s l).2.
Proof.
  induction l as [|[E o] l IH]; intros tr s Hl Hx; simpl; [by rewrite app_nil_r|].
  apply Forall_cons in Hl as [(HE&Ho&Hg&HF&Hne) Hl]. simpl in *.
  destruct (nstep slash E s o) as [s' r] eqn:Hs. specialize (IH (tr ++ [(o, r)]) s' Hl).
  destruct (nrun s' l) as [tr' s'']. simpl in *. rewrite <-app_assoc in IH. apply IH.
  eapply fx_op; [done|done|by apply nop_okb_ok|done|done|by intros ? ? ->|done].
Qed.
Lemma nrun_fexec P D l : dirs_ok slash D → Forall (good_op P (good_fs D)) l →
  fexec P slash (nrun init_st l).1 D (nrun init_st l).2.
Proof. intros HD Hl. apply (nrun_fexec_from P D l [] init_st); [done|by constructor]. Qed.
(** Only paths passed to Watch are held or touched. *)
Lemma holds_in P tr p n : holds P tr p n → ∃ isrec e r, (NWatch p isrec n e, r) ∈ tr.
Proof. intros (tr1&b&e&r&tr2&->&_). exists b, e, r. set_solver. Qed.
Lemma touched_in P tr p : touched P tr p → ∃ p' isrec n e r, (NWatch p' isrec n e, r) ∈ tr ∧ p `prefix_of` p'.
Proof. intros (tr1&p'&b&n&e&r&tr2&->&Hp&_). exists p', b, n, e, r. set_solver. Qed.

(** ** Notation for examples *)
(** "a/b" is the path with components a and b. *)
Fixpoint parse (s : str) : path :=
  match s with
  | [] => [[]]
  | c :: s => if decide (c = slash) then [] :: parse s
      else match parse s with [] => [[c]] | x :: l => (c :: x) :: l end
  end.
Definition pth (s : string) : path := parse (b s).
Definition dirs (l : list string) : gset path := list_to_set (pth <$> l).
Definition dirs_okb (D : gset path) : bool :=
  forallb (λ p, gpathb p && bool_decide (removelast p = [] ∨ removelast p ∈ D)) (elements D).
Lemma dirs_okb_ok D : dirs_okb D = true → dirs_ok slash D.
Proof.
  unfold dirs_okb. rewrite forallb_forall. intros H. split.
  - intros p Hp. specialize (H p). rewrite andb_true_iff in H. apply gpathb_ok. apply H.
    by apply elem_of_list_In, elem_of_elements.
  - intros p c Hp. specialize (H (p ++ [c])). rewrite andb_true_iff, bool_decide_eq_true, removelast_last in H.
    apply H. by apply elem_of_list_In, elem_of_elements.
Qed.
