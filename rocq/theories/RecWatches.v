(** * RecWatches: histories of Watch alone on the recursive tree *)
From Verif Require Import Base Event Watchpoint WatchpointFacts Paths PathsFacts Loop LoopFacts
  Node NodeFacts SpecTree WalkFacts RootFacts NonRec NonRecWp Rec SpecNonRec SpecOS SpecRec RecFacts RecReg RecStop RecDisp RecStep RecTidy RecCopy RecOS RecOrder RecOSStop.
Local Open Scope N_scope.

(** The same environment with a watcher that accepts everything. *)
Definition allow (E : env) : env := Env (e_plat E) (e_sep E) (e_vol E) (λ _ _, true) (e_ord E) (e_word E) (e_readdir E) (e_fuel E).

(** ** A Watch that succeeds runs the same with a watcher that accepts everything *)
Lemma wcallf_allow E s c s' : wcallf E s c = (s', true) → wcallf (allow E) s c = (s', true).
Proof. unfold wcallf. intros [= <- H]. by rewrite H. Qed.
Lemma wcallf_panic E s c : st_panic (wcallf E s c).1 = st_panic s.
Proof. done. Qed.
Lemma case1_allow E s cur par self isrec c e s' :
  case1 E s cur par self isrec c e = (s', ROk) → case1 (allow E) s cur par self isrec c e = (s', ROk).
Proof.
  unfold case1.
  change (watchAddInactive (allow E)) with (watchAddInactive E). change (rwatchAdd (allow E)) with (rwatchAdd E).
  change (watchIsRecursive (allow E)) with (watchIsRecursive E). change (rwatchDel (allow E)) with (rwatchDel E).
  destruct (if self then _ else _) as [s1 d]. destruct (is_none d); [done|]. destruct (d.1 =? 0); [done|].
  destruct (isrec || _).
  - destruct (wcallf E s1 _) as [s2 []] eqn:Ec; [|done]. by rewrite (wcallf_allow _ _ _ _ Ec).
  - destruct (wcallf E s1 _) as [s2 []] eqn:Ec; [|done]. by rewrite (wcallf_allow _ _ _ _ Ec).
Qed.
Lemma case3_allow E s cur isrec c e s' :
  case3 E s cur isrec c e = (s', ROk) → case3 (allow E) s cur isrec c e = (s', ROk).
Proof.
  unfold case3. change (rwatchAdd (allow E)) with (rwatchAdd E). change (rwatchDel (allow E)) with (rwatchDel E).
  destruct (rwatchAdd E s cur c e) as [s1 d]. destruct (is_none d); [done|]. destruct (d.1 =? 0); [|done].
  destruct isrec.
  - destruct (wcallf E s1 _) as [s2 []] eqn:Ec; [|done]. by rewrite (wcallf_allow _ _ _ _ Ec).
  - destruct (wcallf E s1 _) as [s2 []] eqn:Ec; [|done]. by rewrite (wcallf_allow _ _ _ _ Ec).
Qed.
Lemma case2_one_allow E s cur k c e s' :
  case2_one E s cur k c e = (s', ROk) → case2_one (allow E) s cur k c e = (s', ROk).
Proof.
  unfold case2_one. change (rwatchAdd (allow E)) with (rwatchAdd E). change (watchCopy (allow E)) with (watchCopy E).
  change (watchTotal (allow E)) with (watchTotal E).
  destruct (wcallf E _ _) as [s2 []] eqn:Ec; [|done]. by rewrite (wcallf_allow _ _ _ _ Ec).
Qed.
Notation unw E := (λ '(s, r) k,
    let nm := name_at (st_tree s) k in
    let '(s, ok) := if watchIsRecursive E (st_tree s) k then wcallf E s (WRecUnwatch nm)
                    else wcallf E s (WUnwatch nm) in
    (s, if ok then r else RErr)).
Lemma unw_err E l : ∀ s, (foldl (unw E) (s, RErr) l).2 = RErr.
Proof.
  induction l as [|k l IH]; intros s; cbn [foldl]; [done|].
  destruct (watchIsRecursive E (st_tree s) k); cbn; destruct (e_W E _ _); apply IH.
Qed.
Lemma unwatch_allow E l : ∀ s s', unwatch_children E s l = (s', ROk) → unwatch_children (allow E) s l = (s', ROk).
Proof.
  unfold unwatch_children. induction l as [|k l IH]; intros s s'; cbn [foldl]; [done|].
  change (watchIsRecursive (allow E)) with (watchIsRecursive E).
  destruct (watchIsRecursive E (st_tree s) k).
  - destruct (wcallf E s _) as [s2 []] eqn:Ec; [rewrite (wcallf_allow _ _ _ _ Ec); apply IH|].
    intros H. apply (f_equal snd) in H. by rewrite unw_err in H.
  - destruct (wcallf E s _) as [s2 []] eqn:Ec; [rewrite (wcallf_allow _ _ _ _ Ec); apply IH|].
    intros H. apply (f_equal snd) in H. by rewrite unw_err in H.
Qed.
Lemma unwatch_panic E l : ∀ s, st_panic (unwatch_children E s l).1 = st_panic s.
Proof.
  unfold unwatch_children. intros s. generalize ROk. revert s. induction l as [|k l IH]; intros s r; cbn [foldl]; [done|].
  destruct (watchIsRecursive E (st_tree s) k); cbn; by rewrite IH.
Qed.
Lemma case2_many_allow E s cur l c e s' :
  case2_many E s cur l c e = (s', ROk) → case2_many (allow E) s cur l c e = (s', ROk).
Proof.
  unfold case2_many. change (rwatchAdd (allow E)) with (rwatchAdd E). change (watchCopy (allow E)) with (watchCopy E).
  change (watchTotal (allow E)) with (watchTotal E).
  destruct (wcallf E _ _) as [s2 []] eqn:Ec; [|done]. rewrite (wcallf_allow _ _ _ _ Ec). apply unwatch_allow.
Qed.
Lemma rec_Watch_allow E s x isrec c e s' :
  rec_Watch E s x isrec c e = (s', ROk) → rec_Watch (allow E) s x isrec c e = (s', ROk).
Proof.
  unfold rec_Watch. change (e_plat (allow E)) with (e_plat E). change (find_parent (allow E)) with (find_parent E).
  change (e_sep (allow E)) with (e_sep E). change (e_vol (allow E)) with (e_vol E). change (collect (allow E)) with (collect E).
  destruct (r_add _ _ _ _) as [t [cur|]]; [|done]. destruct (find_parent E (st_tree s) x) as [[h self]|]; [apply case1_allow|].
  destruct (collect E _ _) as [s1 [|k [|k' l]]]; [apply case3_allow|apply case2_one_allow|apply case2_many_allow].
Qed.

Section watches.
Context (P : platform) (HP : platform_ok P) (sepc : ascii) (w : bool) (isvol : str → Prop).
Notation nameof := (nameof sepc w).
Notation renv := (renv P sepc w isvol).
Notation rpath := (rpath sepc w isvol).
Notation rinv := (rinv P sepc w isvol).
Notation watched m q := (is_Some (m !! nameof q)).
Notation osm s := (os_watches (st_log s)).

Lemma renv_allow E : renv E → renv (allow E).
Proof. intros [H1 H2 H3 [H4 H5 H6]]. split; try done. Qed.
Lemma obliging_allow E : obliging P (allow E).
Proof. done. Qed.

(** ** Whatever the watcher answers, Watch does not panic if it would not when
    everything is accepted *)
Section calm.
Context (E : env) (HE : renv E).
Lemma del_panic s h n x : rinv (st_tree s) → [] ∉ h → is_Some (st_tree s !! h) → st_panic (rwatchDel E s h (KUser n) x).1 = st_panic s.
Proof. intros. by apply (rwatchDel_put P sepc w isvol E s h (KUser n) x (re_plat _ _ _ _ _ HE)). Qed.
Lemma rec_Watch_calm s p isrec n e :
  rinv (st_tree s) → rpath p → u32 e → user_ev P e → st_panic s = false →
  st_panic (rec_Watch (allow E) s (nameof p) isrec (KUser n) e).1 = false →
  st_panic (rec_Watch E s (nameof p) isrec (KUser n) e).1 = false.
Proof.
  intros Hi Hp Hu Hue Hc. unfold rec_Watch.
  change (e_plat (allow E)) with (e_plat E). change (find_parent (allow E)) with (find_parent E).
  change (e_sep (allow E)) with (e_sep E). change (e_vol (allow E)) with (e_vol E). change (collect (allow E)) with (collect E).
  rewrite (re_plat _ _ _ _ _ HE). set (e' := if isrec then e .| recursive P else e).
  assert (u32 e') as Hu'.
  { unfold e'. destruct isrec; [|done]. apply u32_lor; [done|]. by apply u32_recursive. }
  assert (disj_ev e' (omit P)) as Ho.
  { unfold e'. pose proof (d_re_om P HP) as K. unfold user_ev, internal in Hue. destruct isrec; clear - K Hue; bits. }
  destruct (rec_add_spec P sepc w isvol E (st_tree s) p HE Hi Hp) as (t1&Hadd&Ht1&Hs1&Hold&_&_).
  pose proof (find_spec P HP sepc w isvol E (st_tree s) p HE Hi Hp) as Hf. rewrite Hadd.
  destruct (find_parent E (st_tree s) (nameof p)) as [[h self]|].
  - destruct Hf as (Hpre&->&_&Hsh&_). assert ([] ∉ h) as Hh by (eapply plain_prefix; [done|apply Hp]).
    assert (is_Some (t1 !! h)) as Hsh1 by (by rewrite Hold). clear Hold Hadd Hsh.
    unfold case1. change (watchAddInactive (allow E)) with (watchAddInactive E). change (rwatchAdd (allow E)) with (rwatchAdd E).
    change (watchIsRecursive (allow E)) with (watchIsRecursive E).
    set (s0 := with_tree s t1). set (x := if bool_decide (h = p) then _ else _).
    assert (rinv (st_tree x.1) ∧ st_panic x.1 = false ∧ is_Some (st_tree x.1 !! h)) as (X1&X2&X3).
    { unfold x. case_bool_decide as Hhp.
      - subst h. destruct (add_put P sepc w isvol E HE n e' Hu' Ho s0 p Ht1 Hp Hs1) as (K1&K2&_&_&K5&_). by rewrite K5.
      - destruct (addInactive_spec P sepc w isvol E HE n s0 h e' Ht1 Hh Hsh1) as (K1&K2&_&_&K3&_). by rewrite K2, K3. }
    clearbody x. destruct x as [s1 d]. cbn [fst] in X1, X2, X3.
    destruct (is_none d); [done|]. destruct (d.1 =? 0); [done|]. destruct (isrec || _); cbn [wcallf].
    + cbn [e_W allow]. destruct (e_W E _ _); [done|]. intros _. cbn [fst]. by rewrite del_panic.
    + cbn [e_W allow]. destruct (e_W E _ _); [done|]. intros _. cbn [fst]. by rewrite del_panic.
  - pose proof (collect_tree E (with_tree s t1) p) as (Hc1&Hc2&Hc3).
    destruct (collect E (with_tree s t1) p) as [s2 l]. cbn [fst st_tree st_panic with_tree] in *.
    rewrite <-Hc1 in Ht1, Hs1. destruct l as [|k [|k' l]].
    + unfold case3. change (rwatchAdd (allow E)) with (rwatchAdd E).
      destruct (add_put P sepc w isvol E HE n e' Hu' Ho s2 p Ht1 Hp Hs1) as (K1&K2&_&_&K5&_).
      destruct (rwatchAdd E s2 p (KUser n) e') as [s1 d]. cbn [fst] in *.
      destruct (is_none d); [done|]. destruct (d.1 =? 0); [|done]. destruct isrec; cbn [wcallf e_W allow].
      * destruct (e_W E _ _); [done|]. intros _. cbn [fst]. rewrite del_panic; [cbn [st_panic]; congruence|done|apply Hp|done].
      * destruct (e_W E _ _); [done|]. intros _. cbn [fst]. rewrite del_panic; [cbn [st_panic]; congruence|done|apply Hp|done].
    + unfold case2_one. change (rwatchAdd (allow E)) with (rwatchAdd E). change (watchCopy (allow E)) with (watchCopy E).
      cbn [wcallf e_W allow fst st_panic]. by destruct (e_W E _ _).
    + unfold case2_many. change (rwatchAdd (allow E)) with (rwatchAdd E). change (watchCopy (allow E)) with (watchCopy E).
      cbn [wcallf e_W allow]. rewrite unwatch_panic. destruct (e_W E _ _); [by rewrite unwatch_panic|done].
Qed.
End calm.

(** ** Histories of Watch *)
Record tended (strict : bool) (s : st) : Prop := {
  te_sound : sound P sepc w isvol strict s;
  te_reg : ∀ q, rpath q → watched (osm s) q → ∃ n, rgs (st_tree s) q n ≠ 0;
}.
Lemma tended_step strict E s p isrec n e :
  renv E → tended strict s → rpath p → u32 e → user_ev P e → e ≠ 0 →
  (strict = true → ∀ q x, rpath q → q `prefix_of` p → (q ≠ p ∨ isrec = true) → osm s !! nameof q = Some (x, false) → ¬ incl_ev e x) →
  ∃ s1, rec_Watch (allow E) s (nameof p) isrec (KUser n) e = (s1, ROk) ∧ tended strict s1.
Proof.
  intros HE [Hs Hr] Hp Hu Hue Hne HA.
  destruct (rec_Watch_ok P HP sepc w isvol strict (allow E) (renv_allow E HE) (obliging_allow E) s p isrec n e Hs Hp Hu Hue Hne HA) as (s1&Hs1&Hso&Hg).
  { intros q Q1 _ Q3. by apply Hr. }
  exists s1. split; [done|]. split; [done|].
  pose proof (td_inv _ _ _ _ _ _ _ (so_tidy _ _ _ _ _ _ Hs)) as Hi.
  destruct (rstep_regs P HP sepc w isvol (allow E) s (NWatch p isrec n e) s1 ROk (renv_allow E HE)) as [_ [R1 R2]]; try done; [apply Hso|].
  intros q Hq Wq. destruct (Hg _ Wq) as [K|K].
  - apply (name_inj P sepc w isvol E) in K as ->; try done. exists n. rewrite R2. intros Hz. apply Hne.
    clear - Hz. bits.
  - destruct (Hr q Hq K) as [k Hk]. exists k. destruct (decide (q = p ∧ k = n)) as [[-> ->]|Hqk].
    + rewrite R2. intros Hz. apply Hne. clear - Hz. bits.
    + rewrite R1; [done|]. naive_solver.
Qed.
Lemma watches_tended tr s : rexec P sepc w isvol tr s → watches tr → tended false s.
Proof.
  induction 1 as [|tr s E o s' r Hx IH HE Hok Hst Hpan]; intros Hw.
  { split; [apply sound_init|]. intros q _ [v Hv]. done. }
  apply Forall_app in Hw as [Hw [[Ho ->] _]%Forall_cons]. destruct o as [p isrec n e| |]; try done.
  destruct Hok as (K1&K2&K3). cbn [rstep] in Hst.
  destruct (tended_step false E s p isrec n e HE (IH Hw) K1 K2 K3 Ho) as (s1&Hs1&Ht); [done|].
  apply rec_Watch_allow in Hst. rewrite Hst in Hs1. by injection Hs1 as <-.
Qed.
(** Recursive Watch only: also the kind of the OS watches is right. *)
Lemma recursively_regs tr g : rregs P tr g → Forall (λ '(o, _), recursively o) tr →
  all_ok tr → ∀ q n, g q n ≠ 0 → g q n .& recursive P ≠ 0.
Proof.
  induction 1 as [g Hg|tr g o r g' Hr IH Hst]; intros Hrec Hok q n Hne; [by rewrite Hg in Hne|].
  apply Forall_app in Hrec as [Hrec [Ho _]%Forall_cons]. apply Forall_app in Hok as [Hok [Hl _]%Forall_cons]. simpl in Hl. subst r.
  destruct o as [p isrec m e| |]; try done. cbn in Ho. subst isrec. destruct Hst as [H1 H2].
  destruct (decide (q = p ∧ n = m)) as [[-> ->]|Hqn].
  - rewrite H2. unfold rec_bit. pose proof (nz_re P HP) as Hnz. intros Hz. apply Hnz. clear - Hz. bits.
  - rewrite H1 in Hne |- * by naive_solver. by apply IH.
Qed.
Lemma recursively_tended tr s : rexec P sepc w isvol tr s → watches tr → Forall (λ '(o, _), recursively o) tr → tended true s.
Proof.
  intros Hx Hw Hr. assert (∀ tr', watches tr' → all_ok tr') as Hok.
  { intros tr' H. eapply Forall_impl; [exact H|]. by intros [? ?] [_ ?]. }
  induction Hx as [|tr s E o s' r Hx IH HE Ho Hst Hpan].
  { split; [apply sound_init|]. intros q _ [v Hv]. done. }
  apply Forall_app in Hw as [Hw [[Hwo ->] _]%Forall_cons]. apply Forall_app in Hr as [Hr [Hro _]%Forall_cons].
  specialize (IH Hw Hr). destruct o as [p isrec n e| |]; try done.
  destruct Ho as (K1&K2&K3). cbn [rstep] in Hst.
  destruct (tended_step true E s p isrec n e HE IH K1 K2 K3 Hwo) as (s1&Hs1&Ht).
  - intros _ q x Hq _ _ Hv _. exfalso.
    destruct IH as [[Ht _ _] Hreg]. assert (∀ a c, rpath a → rpath c → nameof a = nameof c → a = c) as Hinj.
    { intros a c. by apply (name_inj P sepc w isvol E). }
    destruct (td_at P sepc w isvol true Hinj _ _ _ _ Ht Hq Hv) as (_&_&_&V). assert (false = true) as K; [|done]. apply V. split; [done|]. left.
    destruct (Hreg q Hq (ex_intro _ _ Hv)) as [k Hk].
    apply (isRecursive_user P _ k); [apply (td_wp _ _ _ _ _ _ _ Ht)|].
    destruct (rexec_inv P HP sepc w isvol tr s Hx) as [_ Hgs].
    pose proof (recursively_regs tr _ Hgs Hr (Hok _ Hw) q k Hk) as K'. by rewrite rgs_plain in K' by apply Hq.
  - apply rec_Watch_allow in Hst. rewrite Hst in Hs1. by injection Hs1 as <-.
Qed.
End watches.
