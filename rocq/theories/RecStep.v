(** * RecStep: the registrations after a history of the recursive tree *)
From Verif Require Import Base Event Watchpoint WatchpointFacts Paths PathsFacts Loop LoopFacts
  Node NodeFacts SpecTree WalkFacts RootFacts NonRec NonRecWp Rec SpecNonRec NonRecDisp SpecOS SpecRec RecFacts RecReg RecStop RecDisp.
Local Open Scope N_scope.

Section step.
Context (P : platform) (HP : platform_ok P) (sepc : ascii) (w : bool) (isvol : str → Prop).
Notation nameof := (nameof sepc w).
Notation renv := (renv P sepc w isvol).
Notation rpath := (rpath sepc w isvol).
Notation rinv := (rinv P sepc w isvol).
Notation rop_ok := (rop_ok P sepc w isvol).
Notation rstep := (rstep sepc w).
Notation rexec := (rexec P sepc w isvol).
Notation oexec := (oexec P sepc w isvol).

(** The registrations a tree holds. *)
Definition rgs (t : tree) (q : path) (n : positive) : N := if decide ([] ∈ q) then 0 else rureg t q n.
Lemma rgs_plain t q n : [] ∉ q → rgs t q n = rureg t q n.
Proof. intros H. unfold rgs. by rewrite decide_False. Qed.

Lemma rstep_regs E s o s' r :
  renv E → rop_ok o → rinv (st_tree s) → rstep E s o = (s', r) → st_panic s' = false →
  rinv (st_tree s') ∧ rreg_after P o r (rgs (st_tree s)) (rgs (st_tree s')).
Proof.
  intros HE Ho Ht Hs Hpan. destruct o as [p isrec n e|n|]; [| |done].
  - destruct Ho as (Hp&Hu&Hue). cbn [SpecRec.rstep] in Hs.
    destruct (rec_Watch_wreg P HP sepc w isvol E s p isrec n e s' r HE Ht Hp Hu Hue Hs Hpan) as (H1&H2&H3).
    split; [done|]. assert ([] ∉ p) as Hpp by apply Hp. cbn [rreg_after]. split.
    + intros q m Hne. unfold rgs. destruct (decide ([] ∈ q)) as [|Hq]; [done|]. by apply H2.
    + rewrite !(rgs_plain _ p) by done. rewrite <-N.lor_assoc. done.
  - cbn [SpecRec.rstep] in Hs. injection Hs as <- <-.
    destruct (rec_Stop_spec P sepc w isvol E HE n s Ht) as (H1&_&_&H4). split; [done|]. cbn [rreg_after].
    intros q m. unfold rgs. destruct (decide ([] ∈ q)) as [|Hq]; [by destruct (decide (m = n))|].
    unfold rureg. destruct (H4 q Hq) as [-> _]. apply sdel_user. by eapply rinv_wp.
Qed.
Lemma rexec_inv tr s : rexec tr s → rinv (st_tree s) ∧ rregs P tr (rgs (st_tree s)).
Proof.
  induction 1 as [|tr s E o s' r Hx [IH1 IH2] HE Ho Hs Hpan].
  - split; [apply rinv_init|]. apply rregs_init. intros p n. unfold rgs. destruct (decide ([] ∈ p)); [done|].
    unfold rureg, wp_at. simpl. destruct (decide (p = [])) as [->|Hne].
    + by rewrite lookup_singleton.
    + by rewrite lookup_singleton_ne by done.
  - destruct (rstep_regs E s o s' r HE Ho IH1 Hs Hpan) as [K1 K2]. split; [done|]. by econstructor.
Qed.
Lemma rregs_asked tr g : rregs P tr g → all_ok tr → ∀ p n, g p n = asked P tr p n.
Proof.
  induction 1 as [g Hg|tr g o r g' Hr IH Hst]; intros Hok p n; [apply Hg|].
  apply Forall_app in Hok as [Hok Hl]. apply Forall_cons in Hl as [Hl _]. simpl in Hl. subst r.
  unfold asked. rewrite foldl_app. cbn [foldl]. fold (asked P tr). specialize (IH Hok).
  destruct o as [q isrec m e|m|]; cbn [rreg_after ask] in *; [| |done].
  - destruct Hst as [H1 H2]. destruct (decide (q = p ∧ m = n)) as [[-> ->]|Hne].
    + by rewrite H2, IH.
    + rewrite H1 by naive_solver. apply IH.
  - rewrite Hst. destruct (decide (n = m)) as [->|Hne].
    + by rewrite decide_True.
    + rewrite decide_False by done. apply IH.
Qed.
Lemma rexec_asked tr s : rexec tr s → all_ok tr → ∀ p n, rgs (st_tree s) p n = asked P tr p n.
Proof. intros Hx Hok. eapply rregs_asked; [|done]. by apply rexec_inv. Qed.
End step.
