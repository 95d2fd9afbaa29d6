(** * C87: the inotify watcher opens, uses and closes its own descriptors only. *)
From Verif Require Import Base InotifyFds SpecInotifyFds.
Local Open Scope Z_scope.

(** ** The invariant *)
(** The fields, by what they are for. *)
Definition field (fd ep pr pw : Z) (k : fkind) : Z := match k with Ino => fd | Epo => ep | PipR => pr | PipW => pw | App => -1 end.
(** The descriptors of the library are those in the fields. *)
Definition owns (t : ftab) (fl : fkind → Z) : Prop := ∀ n k, k ≠ App → t !! n = Some k ↔ n ≠ -1 ∧ n = fl k.
Definition at_pc (s : fdst) : Prop :=
  let 'FS _ fd ep pr pw lo pc _ := s in
  match pc with
  | Rest => match lo with
            | Some n => n = fd ∧ fd ≠ -1 ∧ ep ≠ -1 ∧ pr ≠ -1 ∧ pw ≠ -1
            | None => fd = -1 ∧ ep = -1 ∧ pr = -1 ∧ pw = -1 end
  | W1 => lo = None ∧ fd ≠ -1 ∧ ep = -1 ∧ pr = -1 ∧ pw = -1
  | W2 => lo = None ∧ fd ≠ -1 ∧ ep ≠ -1 ∧ pr = -1 ∧ pw = -1
  | W3 | W4 => lo = None ∧ fd ≠ -1 ∧ ep ≠ -1 ∧ pr ≠ -1 ∧ pw ≠ -1
  | F1 => lo = None ∧ fd ≠ -1
  | F2 => lo = None ∧ fd ≠ -1 ∧ ep = -1
  | F3 => lo = None ∧ fd ≠ -1 ∧ ep = -1 ∧ pr = -1
  | F4 => lo = None ∧ fd ≠ -1 ∧ ep = -1 ∧ pr = -1 ∧ pw = -1
  | C1 => lo = Some fd ∧ fd ≠ -1 ∧ ep ≠ -1 ∧ pr ≠ -1 ∧ pw ≠ -1
  | S1 => lo = None ∧ fd = -1 ∧ ep ≠ -1 ∧ pr ≠ -1 ∧ pw ≠ -1
  | S2 e => lo = None ∧ e = None ∧ fd = -1 ∧ ep = -1 ∧ pr ≠ -1 ∧ pw ≠ -1
  | S3 e => lo = None ∧ e = None ∧ fd = -1 ∧ ep = -1 ∧ pr = -1 ∧ pw ≠ -1
  | Z1 | Z2 | Z3 | Z4 | Gone => lo = None ∧ fd = -1 ∧ ep = -1 ∧ pr = -1 ∧ pw = -1
  | Panicked => False
  end.
Record finv (s : fdst) : Prop := {
  fi_own : owns (f_tab s) (field (f_fd s) (f_ep s) (f_pr s) (f_pw s));
  fi_nat n k : f_tab s !! n = Some k → 0 ≤ n;
  fi_pc : at_pc s;
  fi_log : Forall rightful (f_log s) }.

Lemma owns_open t fl n : owns t fl → t !! n = None → owns (<[n := App]> t) fl.
Proof.
  intros H Hn m k Hk. rewrite lookup_insert_Some. rewrite <- (H m k Hk). split; [by intros [[-> <-]|[? ?]]|].
  intros E. right. split; [|done]. intros ->. congruence.
Qed.
Lemma owns_shut t fl n : owns t fl → t !! n = Some App → owns (delete n t) fl.
Proof.
  intros H Hn m k Hk. rewrite lookup_delete_Some. rewrite <- (H m k Hk). split; [by intros [? ?]|].
  intros E. split; [|done]. intros ->. congruence.
Qed.
Lemma owns_set t fl fl' n k : owns t fl → k ≠ App → fl k = -1 → t !! n = None → n ≠ -1 → fl' k = n → (∀ j, j ≠ k → fl' j = fl j) → owns (<[n := k]> t) fl'.
Proof.
  intros H Hk Hf Hn Hn1 Hk' Hj m j Hjp. rewrite lookup_insert_Some. destruct (decide (j = k)) as [->|Hjk].
  - rewrite Hk'. split; [|intros [? ->]; by left]. intros [[-> _]|[? Hm]]; [done|]. apply (H m k Hk) in Hm as [? ->]. congruence.
  - rewrite (Hj j Hjk), <- (H m j Hjp). split; [by intros [[? ?]|[? ?]]|]. intros E. right. split; [|done]. intros ->. congruence.
Qed.
Lemma owns_close t fl fl' k : owns t fl → k ≠ App → fl k ≠ -1 → fl' k = -1 → (∀ j, j ≠ k → fl' j = fl j) → owns (delete (fl k) t) fl'.
Proof.
  intros H Hk Hf Hk' Hj m j Hjp. rewrite lookup_delete_Some. destruct (decide (j = k)) as [->|Hjk].
  - rewrite Hk'. split; [|intros [? ->]; done]. intros [Hm E]. apply (H m k Hk) in E as [? ->]. done.
  - rewrite (Hj j Hjk), <- (H m j Hjp). split; [by intros [? ?]|]. intros E. split; [|done]. intros <-.
    assert (t !! fl k = Some k) as E' by (by apply H). congruence.
Qed.
Lemma owns_at t fl k : owns t fl → k ≠ App → fl k ≠ -1 → t !! fl k = Some k.
Proof. intros H Hk Hf. by apply H. Qed.

(** Closing a field. *)
Lemma cfield_in t fl fl' k e l t' v' e' l' : cfield false t (fl k) e l t' v' e' l' → owns t fl → (∀ n k, t !! n = Some k → 0 ≤ n) → k ≠ App →
  fl' k = -1 → (∀ j, j ≠ k → fl' j = fl j) → Forall rightful l →
  v' = -1 ∧ e' = e ∧ owns t' fl' ∧ (∀ n k, t' !! n = Some k → 0 ≤ n) ∧ Forall rightful l'.
Proof.
  intros H Ho Hn Hk Hk' Hj Hl. destruct H as [Hv|t' Hv Hc|t' x Hv Hc].
  - split_and!; [done..| |done|done]. intros m j Hjp. destruct (decide (j = k)) as [->|Hjk].
    + rewrite (Ho m k Hjp), Hk', Hv. done.
    + rewrite (Hj j Hjk). by apply Ho.
  - pose proof (owns_at t fl k Ho Hk Hv) as Ht. inversion Hc; subst. split_and!; [done..| | |].
    + by apply (owns_close _ fl).
    + intros n j [_ E]%lookup_delete_Some. by eapply Hn.
    + apply Forall_app. split; [done|]. apply Forall_singleton. rewrite Ht. destruct k; cbn; try done; eauto 10.
  - pose proof (owns_at t fl k Ho Hk Hv) as Ht. inversion Hc; subst; [done|congruence].
Qed.

Lemma owns_ext t fl fl' : owns t fl → (∀ k, k ≠ App → fl' k = fl k) → owns t fl'.
Proof. intros H E n k Hk. rewrite (E k Hk). by apply H. Qed.
Lemma cfield_step t fl k e l t' v' e' l' : cfield false t (fl k) e l t' v' e' l' → owns t fl → (∀ n k, t !! n = Some k → 0 ≤ n) → k ≠ App → Forall rightful l →
  v' = -1 ∧ e' = e ∧ owns t' (λ j, if decide (j = k) then -1 else fl j) ∧ (∀ n k, t' !! n = Some k → 0 ≤ n) ∧ Forall rightful l'.
Proof.
  intros H Ho Hn Hk Hl. apply (cfield_in t fl (λ j, if decide (j = k) then -1 else fl j) k e l t' v' e' l'); try done.
  - by rewrite decide_True.
  - intros j Hj. by rewrite decide_False.
Qed.
Lemma closes_own t fl k t' e : closes false t (fl k) t' e → owns t fl → (∀ n k, t !! n = Some k → 0 ≤ n) → k ≠ App → fl k ≠ -1 →
  e = None ∧ owns t' (λ j, if decide (j = k) then -1 else fl j) ∧ (∀ n k, t' !! n = Some k → 0 ≤ n).
Proof.
  intros Hc Ho Hn Hk Hv. pose proof (owns_at t fl k Ho Hk Hv) as Ht. inversion Hc; subst; [|done|congruence]. split_and!; [done| |].
  - apply (owns_close _ fl); try done; [by rewrite decide_True|]. intros j Hj. by rewrite decide_False.
  - intros n j [_ E]%lookup_delete_Some. by eapply Hn.
Qed.
Ltac fclose k :=
  let Ho' := fresh "Ho'" in let Hn' := fresh "Hn'" in let Hl' := fresh "Hl'" in
  match goal with H : cfield _ ?t ?v ?e ?l ?t' ?v' ?e' ?l', Ho : owns ?t ?fl, Hn : ∀ n k, ?t !! n = Some k → 0 ≤ n, Hl : Forall rightful ?l |- _ =>
    destruct (cfield_step t fl k e l t' v' e' l' H Ho Hn ltac:(done) Hl) as (-> & -> & Ho' & Hn' & Hl') end;
  split; cbn [f_tab f_fd f_ep f_pr f_pw f_log at_pc]; [apply (owns_ext _ _ _ Ho'); let j := fresh "j" in intros j ?; by destruct j|done|done|done].

Lemma rl_app l l' : Forall rightful l → Forall rightful l' → Forall rightful (l ++ l').
Proof. intros. by apply Forall_app. Qed.

Lemma fstep_inv pf s o s' : pf ≠ PZeroes → finv s → fstep pf false s o s' → finv s'.
Proof.
  intros Hpf I H.
  pose proof (fi_own _ I) as Hown. pose proof (fi_pc _ I) as Hpc. pose proof (fi_log _ I) as Hlog. pose proof (fi_nat _ I) as Hnat.
  pose proof (owns_at _ _ Ino Hown) as HI. pose proof (owns_at _ _ Epo Hown) as HE. pose proof (owns_at _ _ PipR Hown) as HR. pose proof (owns_at _ _ PipW Hown) as HW.
  clear I. destruct H; cbn [f_tab f_fd f_ep f_pr f_pw f_log at_pc field] in *.
  all: try match goal with H : unused _ _ |- _ => destruct H as [? ?] end.
  all: try match goal with H : unused _ _ |- _ => destruct H as [? ?] end.
  all: try (destruct lo as [n0|]; destruct_and?; simplify_eq; try done; []).
  all: destruct_and?; simplify_eq; try done.
  all: try rewrite HI by done; try rewrite HE by done; try rewrite HR by done; try rewrite HW by done.
  all: try (split; cbn [f_tab f_fd f_ep f_pr f_pw f_log at_pc]; [done|done|by destruct_and?|]; apply rl_app; [done|]; repeat constructor; cbn; auto; fail).
  - split; cbn [f_tab f_fd f_ep f_pr f_pw f_log at_pc]; [by apply owns_open| |done|done].
    intros m k [[<- <-]|[_ E]]%lookup_insert_Some; [done|by eapply Hnat].
  - split; cbn [f_tab f_fd f_ep f_pr f_pw f_log at_pc]; [by apply owns_shut| |done|done]. intros m k [_ E]%lookup_delete_Some. by eapply Hnat.
  - split; cbn [f_tab f_fd f_ep f_pr f_pw f_log at_pc]; [| |split_and!; try done; lia|done].
    + eapply (owns_set _ _ _ _ Ino); [exact Hown|done|done|done|lia|done|]. intros j ?; by destruct j.
    + intros m k [[<- <-]|[_ E]]%lookup_insert_Some; [done|by eapply Hnat].
  - split; cbn [f_tab f_fd f_ep f_pr f_pw f_log at_pc]; [| |split_and!; try done; lia|done].
    + eapply (owns_set _ _ _ _ Epo); [exact Hown|done|done|done|lia|done|]. intros j ?; by destruct j.
    + intros m k [[<- <-]|[_ E]]%lookup_insert_Some; [done|by eapply Hnat].
  - destruct pf; try done; split; cbn [f_tab f_fd f_ep f_pr f_pw f_log at_pc]; done.
  - split; cbn [f_tab f_fd f_ep f_pr f_pw f_log at_pc]; [| |split_and!; try done; lia|done].
    + eapply (owns_set _ (field fd ep n (-1)) _ _ PipW); [|done|done|by rewrite lookup_insert_ne|lia|done|].
      * eapply (owns_set _ _ _ _ PipR); [exact Hown|done|done|done|lia|done|]. intros j ?; by destruct j.
      * intros j ?; by destruct j.
    + intros q k [[<- <-]|[_ E]]%lookup_insert_Some; [done|]. apply lookup_insert_Some in E as [[<- <-]|[_ E]]; [done|by eapply Hnat].
  - split; cbn [f_tab f_fd f_ep f_pr f_pw f_log at_pc]; [done|done|by destruct ok|]. apply rl_app; [done|]. repeat constructor.
  - fclose Epo.
  - fclose PipR.
  - fclose PipW.
  - match goal with H : closes _ _ _ _ _ |- _ => destruct (closes_own _ _ Ino _ _ H Hown Hnat) as (-> & Ho & Hn); [done|done|] end.
    split; cbn [f_tab f_fd f_ep f_pr f_pw f_log at_pc]; [|done|done|].
    + apply (owns_ext _ _ _ Ho). intros j ?; by destruct j.
    + apply rl_app; [done|]. repeat constructor.
  - split; cbn [f_tab f_fd f_ep f_pr f_pw f_log at_pc]; [done|done|done|]. apply rl_app; [done|]. rewrite HE; [by repeat constructor|done|].
    destruct pc; destruct_and?; done.
  - split; cbn [f_tab f_fd f_ep f_pr f_pw f_log at_pc]; [done|done|done|]. apply rl_app; [done|]. rewrite HI; [by repeat constructor|done|].
    destruct pc; destruct_and?; done.
  - match goal with H : closes _ _ _ _ _ |- _ => destruct (closes_own _ _ Ino _ _ H Hown Hnat) as (-> & Ho & Hn); [done|done|] end.
    rewrite decide_False by done. split; cbn [f_tab f_fd f_ep f_pr f_pw f_log at_pc]; [|done|done|].
    + apply (owns_ext _ _ _ Ho). intros j ?; by destruct j.
    + apply rl_app; [done|]. repeat constructor.
  - fclose Epo.
  - fclose PipR.
  - fclose PipW.
  - match goal with H : cfield _ _ _ _ _ _ _ _ _ |- _ => destruct (cfield_step _ _ PipW _ _ _ _ _ _ H Hown Hnat) as (_ & ? & _); done end.
  - fclose Epo.
  - fclose PipR.
  - fclose PipW.
  - fclose Ino.
Qed.

Lemma finit_inv X : (∀ n, n ∈ X → 0 ≤ n) → finv (finit X).
Proof.
  intros HX. split; cbn [f_tab f_fd f_ep f_pr f_pw f_log at_pc finit]; [| |done|done].
  - intros n k Hk. rewrite lookup_gset_to_gmap_Some. split; [by intros [_ <-]|]. intros [? ->]. by destruct k.
  - intros n k [? _]%lookup_gset_to_gmap_Some. by apply HX.
Qed.
Lemma fsteps_inv pf s os s' : pf ≠ PZeroes → finv s → fsteps pf false s os s' → finv s'.
Proof. intros Hpf I H. induction H as [s|s o s' os s'' H IH Hs]; [done|]. eapply fstep_inv; [exact Hpf|by apply IH|exact Hs]. Qed.
Lemma freach_inv pf s : pf ≠ PZeroes → freach pf false s → finv s.
Proof. intros Hpf (X & os & HX & H). eapply fsteps_inv; [done| |exact H]. by apply finit_inv. Qed.
Lemma freach_step pf intr s o s' : freach pf intr s → fstep pf intr s o s' → freach pf intr s'.
Proof. intros (X & os & HX & H) Hs. exists X, (os ++ option_list o). split; [done|]. by eapply fsteps_S. Qed.
Lemma fsteps_front pf intr s o s' os s'' : fstep pf intr s o s' → fsteps pf intr s' os s'' → fsteps pf intr s (option_list o ++ os) s''.
Proof.
  intros Hs H. induction H as [s'|s' o' s2 os s'' H IH Hs'].
  - pose proof (fsteps_S _ _ s o s [] s' (fsteps_0 _ _ s) Hs) as E. rewrite app_nil_r. exact E.
  - rewrite app_assoc. eapply fsteps_S; [|exact Hs']. by apply IH.
Qed.
Lemma fsteps_trans pf intr s os s' os' s'' : fsteps pf intr s os s' → fsteps pf intr s' os' s'' → fsteps pf intr s (os ++ os') s''.
Proof.
  intros H H'. induction H' as [s'|s' o' s2 os' s'' H' IH Hs']; [by rewrite app_nil_r|]. rewrite app_assoc. eapply fsteps_S; [by apply IH|done].
Qed.

Lemma held_lookup s n k : held s !! n = Some k ↔ f_tab s !! n = Some k ∧ k ≠ App.
Proof. unfold held. rewrite map_filter_lookup_Some. done. Qed.
Lemma held_none s : finv s → f_fd s = -1 → f_ep s = -1 → f_pr s = -1 → f_pw s = -1 → held s = ∅.
Proof.
  intros I H1 H2 H3 H4. apply map_eq. intros n. rewrite lookup_empty. destruct (held s !! n) as [k|] eqn:E; [|done]. exfalso.
  apply held_lookup in E as [E Hk]. apply (fi_own _ I n k Hk) in E as [Hn ->]. destruct k; cbn [field] in Hn; congruence.
Qed.
Lemma held_four s : finv s → f_fd s ≠ -1 → f_ep s ≠ -1 → f_pr s ≠ -1 → f_pw s ≠ -1 → four s.
Proof.
  intros I H1 H2 H3 H4. pose proof (fi_own _ I) as Ho.
  pose proof (owns_at _ _ Ino Ho) as E1. pose proof (owns_at _ _ Epo Ho) as E2. pose proof (owns_at _ _ PipR Ho) as E3. pose proof (owns_at _ _ PipW Ho) as E4.
  cbn [field] in *. specialize (E1 ltac:(done) H1). specialize (E2 ltac:(done) H2). specialize (E3 ltac:(done) H3). specialize (E4 ltac:(done) H4).
  assert (NoDup [f_fd s; f_ep s; f_pr s; f_pw s]) as Hnd.
  { repeat (apply NoDup_cons; split; [rewrite ?elem_of_cons, elem_of_nil; intros Hq; destruct_or?; try done; congruence|]). apply NoDup_nil_2. }
  exists (f_fd s), (f_ep s), (f_pr s), (f_pw s). split; [|done]. apply map_eq. intros n.
  apply NoDup_cons in Hnd as [N1 [N2 [N3 _]%NoDup_cons]%NoDup_cons]. rewrite ?not_elem_of_cons in *. destruct_and?.
  apply option_eq. intros k. rewrite held_lookup. split.
  - intros [E Hk]. apply (Ho n k Hk) in E as [Hn ->]. destruct k; cbn [field]; simplify_map_eq; done.
  - intros E. rewrite !lookup_insert_Some, lookup_singleton_Some in E.
    destruct E as [[<- <-]|[_ [[<- <-]|[_ [[<- <-]|[_ [<- <-]]]]]]]; done.
Qed.

Lemma size_of_list (l : list Z) : (size (list_to_set l : gset Z) ≤ length l)%nat.
Proof.
  induction l as [|x l IH]; [done|]. cbn [list_to_set length]. rewrite size_union_alt, size_singleton.
  assert (list_to_set l ∖ {[x]} ⊆ (list_to_set l : gset Z)) as Hs by set_solver. apply subseteq_size in Hs. lia.
Qed.

(** ** C87 *)
(** Every system call on a descriptor is made on one the watcher opened and has not closed,
    of the right kind; no descriptor of the rest of the program is closed. *)
Theorem C87_rightful_partial pf s : pf ≠ PZeroes → freach pf false s → Forall rightful (f_log s) ∧ stolen s = 0%nat.
Proof.
  intros Hpf H. pose proof (fi_log _ (freach_inv _ _ Hpf H)) as Hl. split; [done|]. unfold stolen. induction Hl as [|c l Hc Hl IH]; [done|].
  cbn [List.filter]. destruct c as [n [[]|]| | | |]; try done. cbn in Hc. by destruct_or?.
Qed.
(** The library never panics over a descriptor, and never has two open for the same purpose:
    at most four altogether, however often it was set up and closed. *)
Theorem C87_bounded_partial pf s : pf ≠ PZeroes → freach pf false s →
  f_pc s ≠ Panicked ∧ (∀ n m k, holds s n k → holds s m k → n = m) ∧ (size (held s) ≤ 4)%nat.
Proof.
  intros Hpf H. pose proof (freach_inv _ _ Hpf H) as I. split_and!.
  - pose proof (fi_pc _ I) as Hpc. destruct s as [t fd ep pr pw lo pc l]. cbn [at_pc f_pc] in *. by intros ->.
  - intros n m k [E Hk] [E' _]. apply (fi_own _ I n k Hk) in E as [_ ->]. by apply (fi_own _ I m k Hk) in E' as [_ ->].
  - assert (dom (held s) ⊆ list_to_set [f_fd s; f_ep s; f_pr s; f_pw s]) as Hs.
    { intros n [k [E Hk]%held_lookup]%elem_of_dom. apply (fi_own _ I n k Hk) in E as [_ ->]. apply elem_of_list_to_set.
      rewrite !elem_of_cons. destruct k; cbn [field]; auto 10. done. }
    apply subseteq_size in Hs. rewrite size_dom in Hs. etrans; [exact Hs|]. etrans; [apply size_of_list|done].
Qed.
(** When a call has returned, the library has either nothing open or exactly the four; four
    after a Watch that succeeded, nothing after a Close that succeeded.  A call that finds
    nothing open and fails to set up the watcher leaves nothing open. *)
Theorem C87_returned_partial pf s o s' : pf ≠ PZeroes → freach pf false s → fstep pf false s (Some o) s' →
  match o with
  | OWatch true => four s'
  | OClose true => held s' = ∅
  | _ => held s' = ∅ ∨ four s'
  end.
Proof.
  intros Hpf H Hs. pose proof (freach_inv _ _ Hpf (freach_step _ _ _ _ _ H Hs)) as I. pose proof (fi_pc _ I) as Hpc.
  assert (f_pc s' = Rest) as Hr by (by inversion Hs).
  assert (f_loop s' = None ∧ held s' = ∅ ∨ (∃ n, f_loop s' = Some n) ∧ four s') as Hd.
  { destruct s' as [t fd ep pr pw [n|] pc l]; cbn [f_pc] in Hr; subst pc; cbn [at_pc f_loop] in *; destruct_and?.
    - right. split; [by eexists|]. by apply held_four.
    - left. split; [done|]. by apply held_none. }
  destruct o as [[]|[]]; [| |  |].
  - destruct Hd as [[Hn _]|[_ ?]]; [|done]. exfalso. inversion Hs; subst; cbn [f_loop at_pc] in *; simplify_eq; by destruct_and?.
  - destruct Hd as [[_ ?]|[_ ?]]; auto.
  - destruct Hd as [[_ ?]|[[n Hn] _]]; [done|]. exfalso. pose proof (fi_pc _ (freach_inv _ _ Hpf H)) as Hpc0.
    inversion Hs; subst; cbn [f_loop at_pc] in *; simplify_eq; destruct_and?; simplify_eq; done.
  - destruct Hd as [[_ ?]|[_ ?]]; auto.
Qed.
Ltac go := eapply (fsteps_front _ _ _ _ _ _ _).
Ltac new := split; [lia|by simplify_map_eq].
Lemma held_rest pf s : pf ≠ PZeroes → freach pf false s → f_pc s = Rest → held s = ∅ → f_loop s = None.
Proof.
  intros Hpf H Hr He. pose proof (freach_inv _ _ Hpf H) as I. pose proof (fi_pc _ I) as Hpc.
  destruct s as [t fd ep pr pw [n|] pc l]; [|done]. cbn [f_pc] in Hr. subst pc. cbn [at_pc] in Hpc. destruct_and?.
  assert (held (FS t fd ep pr pw (Some n) Rest l) !! fd = Some Ino) as E; [|by rewrite He in E].
  apply held_lookup. split; [|done]. by apply (fi_own _ I fd Ino).
Qed.
(** A Watch that returns nil has asked the inotify instance as the last thing it did. *)
Theorem C87_asked_partial pf s s' : pf ≠ PZeroes → freach pf false s → fstep pf false s (Some (OWatch true)) s' →
  ∃ l n, f_log s' = f_log s ++ l ++ [FIno n (Some Ino)] ∧ holds s' n Ino.
Proof.
  intros Hpf H Hs. pose proof (fi_log _ (freach_inv _ _ Hpf (freach_step _ _ _ _ _ H Hs))) as Hl.
  inversion Hs; subst; cbn [f_log] in Hl; (apply Forall_app in Hl as [_ Hl]; repeat (apply Forall_cons_1 in Hl as [? Hl])).
  - exists [], fd. cbn [rightful] in *. split; [cbn [f_log app]; congruence|by split].
  - exists [FAdd ep (t !! ep) pr (t !! pr)], fd. cbn [rightful] in *. split; [cbn [f_log app]; congruence|by split].
Qed.
(** After any history, with nothing open, Watch can succeed if there are four free numbers. *)
Theorem C87_again_partial pf s a e r w : pf ≠ PZeroes → freach pf false s → f_pc s = Rest → held s = ∅ →
  NoDup [a; e; r; w] → Forall (unused (f_tab s)) [a; e; r; w] → ∃ s', fsteps pf false s [OWatch true] s' ∧ four s'.
Proof.
  intros Hpf H Hr He Hnd Hun. pose proof (held_rest _ _ Hpf H Hr He) as Hlo. pose proof (fi_pc _ (freach_inv _ _ Hpf H)) as Hpc.
  destruct s as [t fd ep pr pw lo pc l]. cbn [f_pc f_loop f_tab] in *. subst pc lo. cbn [at_pc] in Hpc. destruct Hpc as (-> & -> & -> & ->).
  apply Forall_cons_1 in Hun as [[? Ha] [[? Hb] [[? Hc] [[? Hd] _]%Forall_cons_1]%Forall_cons_1]%Forall_cons_1].
  apply NoDup_cons in Hnd as [N1 [N2 [N3 _]%NoDup_cons]%NoDup_cons]. rewrite ?not_elem_of_cons in *. destruct_and?.
  eassert (fsteps pf false _ [OWatch true] _) as K; [|eexists; split; [exact K|]].
  - change [OWatch true] with (option_list (@None fout) ++ option_list (@None fout) ++ option_list (@None fout) ++ option_list (@None fout) ++ option_list (Some (OWatch true)) ++ []).
    go; [apply (fs_init _ _ _ a); [done|new]|]. go; [apply (fs_epoll _ _ _ e); new|].
    go; [apply (fs_pipe _ _ _ r w); [new|new|done]|]. go; [apply (fs_ctl1 _ _ _ _ _ _ _ _ _ true)|]. go; [apply fs_ctl2|]. apply fsteps_0.
  - apply held_four; cbn [f_fd f_ep f_pr f_pw]; try lia. destruct H as (X & os & HX & H).
    apply (freach_inv pf); [done|]. eexists X, _. split; [done|]. eapply fsteps_trans; [exact H|exact K].
Qed.
(** After any history, Close can succeed, and then nothing is open. *)
Theorem C87_closed_partial pf s : pf ≠ PZeroes → freach pf false s → f_pc s = Rest → ∃ s', fsteps pf false s [OClose true] s' ∧ held s' = ∅.
Proof.
  intros Hpf H Hr. pose proof (freach_inv _ _ Hpf H) as I. pose proof (fi_pc _ I) as Hpc.
  assert (∀ s', fsteps pf false s [OClose true] s' → finv s') as Hinv by (intros s' K; eapply fsteps_inv; eauto).
  destruct s as [t fd ep pr pw lo pc l]. cbn [f_pc] in Hr. subst pc. cbn [at_pc] in Hpc. destruct lo as [n|].
  - destruct Hpc as (-> & ? & ? & ? & ?). pose proof (fi_own _ I) as Ho.
    pose proof (owns_at _ _ Ino Ho) as E1. pose proof (owns_at _ _ Epo Ho) as E2. pose proof (owns_at _ _ PipR Ho) as E3. pose proof (owns_at _ _ PipW Ho) as E4.
    cbn [f_tab f_fd f_ep f_pr f_pw field] in *. specialize (E1 ltac:(done) ltac:(done)). specialize (E2 ltac:(done) ltac:(done)). specialize (E3 ltac:(done) ltac:(done)). specialize (E4 ltac:(done) ltac:(done)).
    assert (fd ≠ ep ∧ fd ≠ pr ∧ fd ≠ pw ∧ ep ≠ pr ∧ ep ≠ pw ∧ pr ≠ pw) as (? & ? & ? & ? & ? & ?) by (split_and!; congruence).
    eassert (fsteps pf false _ [OClose true] _) as K; [|eexists; split; [exact K|]].
    + change [OClose true] with (option_list (@None fout) ++ option_list (@None fout) ++ option_list (@None fout) ++ option_list (@None fout) ++ option_list (Some (OClose true)) ++ []).
      go; [by apply fs_write|]. go; [eapply fs_shut; by eapply cl_ok|]. cbn [decide]. rewrite decide_False by done.
      go; [eapply fs_s1, cf_ok; [done|]; eapply cl_ok; by simplify_map_eq|]. go; [eapply fs_s2, cf_ok; [done|]; eapply cl_ok; by simplify_map_eq|].
      go; [eapply fs_s3; [eapply cf_ok; [done|]; eapply cl_ok; by simplify_map_eq|done]|]. apply fsteps_0.
    + apply Hinv in K. by apply held_none.
  - destruct Hpc as (-> & -> & -> & ->).
    eassert (fsteps pf false _ [OClose true] _) as K; [|eexists; split; [exact K|]].
    + change [OClose true] with (option_list (Some (OClose true)) ++ []). go; [by apply fs_idle|apply fsteps_0].
    + apply Hinv in K. by apply held_none.
Qed.

(** ** What goes wrong otherwise *)
Definition std : gset Z := {[0; 1; 2]}.
Lemma std_nat n : n ∈ std → 0 ≤ n.
Proof. unfold std. rewrite !elem_of_union, !elem_of_singleton. lia. Qed.
Definition t0 : ftab := gset_to_gmap App std.
(** A Watch for which the pipe cannot be created, in a program with standard input, output and
    error; the program opens standard input again. *)
Lemma zero_cycle pw l : pw = -1 ∨ pw = 0 →
  fsteps PZeroes false (FS t0 (-1) (-1) (-1) pw None Rest l) [OWatch false]
    (FS t0 (-1) (-1) (-1) 0 None Rest (l ++ [FClose 4 (Some Epo)] ++ [FClose 0 (Some App)] ++ [FClose 0 None] ++ [FClose 3 (Some Ino)])).
Proof.
  intros _. 
  change [OWatch false] with (option_list (@None fout) ++ option_list (@None fout) ++ option_list (@None fout) ++ option_list (@None fout) ++
    option_list (@None fout) ++ option_list (@None fout) ++ option_list (Some (OWatch false)) ++ option_list (@None fout) ++ []).
  go; [apply (fs_init _ _ _ 3); [done|by split; [lia|vm_compute]]|]. go; [apply (fs_epoll _ _ _ 4); by split; [lia|vm_compute]|].
  go; [by apply fs_nopipe|]. cbn [option_list].
  go; [eapply fs_f1, cf_ok; [done|]; eapply cl_ok; by vm_compute|].
  go; [eapply fs_f2, cf_ok; [done|]; eapply cl_ok; by vm_compute|].
  go; [eapply fs_f3, cf_err; [done|]; eapply cl_bad; by vm_compute|].
  go; [eapply fs_f4, cl_ok; by vm_compute|].
  go; [apply (fs_open _ _ _ 0); split; [lia|by vm_compute]|].
  match goal with |- fsteps _ _ (FS ?t _ _ _ _ _ _ ?l1) _ (FS _ _ _ _ _ _ _ ?l2) =>
    assert (t = t0) as -> by (apply (bool_decide_unpack _); by vm_compute); assert (l1 = l2) as -> end; [|apply fsteps_0].
  rewrite <- !app_assoc. repeat f_equal; by vm_compute.
Qed.
(** If a failing unix.Pipe leaves zeros, every Watch that fails there closes descriptor 0 of
    the program (and tries to close it a second time): any number of times. *)
Theorem C87_zero_refuted n : ∃ s, fsteps PZeroes false (finit std) (replicate n (OWatch false)) s ∧ stolen s = n.
Proof.
  enough (∃ pw l, (pw = -1 ∨ pw = 0) ∧ fsteps PZeroes false (finit std) (replicate n (OWatch false)) (FS t0 (-1) (-1) (-1) pw None Rest l) ∧
    stolen (FS t0 (-1) (-1) (-1) pw None Rest l) = n) as (pw & l & _ & H & Hl) by (by eexists).
  induction n as [|n IH].
  - exists (-1), []. split_and!; [by left| |done]. apply fsteps_0.
  - destruct IH as (pw & l & Hpw & H & Hl). eexists 0, _. split_and!; [by right| |].
    + rewrite replicate_S_end. eapply fsteps_trans; [exact H|]. by apply zero_cycle.
    + unfold stolen in *. cbn [f_log] in *. rewrite List.filter_app, app_length, Hl. cbn. lia.
Qed.
Ltac now_used := eapply cl_ok; by vm_compute.
Ltac fresh_number := split; [lia|by vm_compute].
(** If close answers EINTR for the read end of the pipe, the number stays in the field; when
    the program has it, a Watch that fails at EpollCreate1 closes it. *)
Theorem C87_intr_refuted : ∃ s, fsteps PNever true (finit std) [OWatch true; OClose true; OWatch false] s ∧ stolen s = 1%nat.
Proof.
  eexists. split.
  - change [OWatch true; OClose true; OWatch false] with
      (option_list (@None fout) ++ option_list (@None fout) ++ option_list (@None fout) ++ option_list (@None fout) ++ option_list (Some (OWatch true)) ++
       option_list (@None fout) ++ option_list (@None fout) ++ option_list (@None fout) ++ option_list (@None fout) ++ option_list (Some (OClose true)) ++
       option_list (@None fout) ++ option_list (@None fout) ++ option_list (@None fout) ++
       option_list (@None fout) ++ option_list (@None fout) ++ option_list (@None fout) ++ option_list (@None fout) ++ option_list (@None fout) ++ option_list (Some (OWatch false)) ++ []).
    go; [apply (fs_init _ _ _ 3); [done|fresh_number]|]. go; [apply (fs_epoll _ _ _ 4); fresh_number|].
    go; [apply (fs_pipe _ _ _ 5 6); [fresh_number|fresh_number|done]|]. go; [apply (fs_ctl1 _ _ _ _ _ _ _ _ _ true)|]. go; [apply fs_ctl2|].
    go; [by apply fs_write|]. go; [eapply fs_shut; now_used|]. rewrite decide_False by done.
    go; [eapply fs_s1, cf_ok; [done|]; now_used|]. go; [eapply fs_s2, cf_err; [done|]; eapply cl_intr; [by vm_compute|done]|].
    go; [eapply fs_s3; [eapply cf_ok; [done|]; now_used|done]|].
    go; [apply (fs_open _ _ _ 3); fresh_number|]. go; [apply (fs_open _ _ _ 4); fresh_number|]. go; [apply (fs_open _ _ _ 5); fresh_number|].
    go; [apply (fs_init _ _ _ 6); [done|fresh_number]|]. go; [apply fs_noepoll|].
    go; [eapply fs_f1, cf_none; done|]. go; [eapply fs_f2, cf_ok; [done|]; now_used|]. go; [eapply fs_f3, cf_none; done|].
    go; [eapply fs_f4; now_used|]. apply fsteps_0.
  - by vm_compute.
Qed.
(** A Watch for which the pipe cannot be created, leaving the slice as it is; while it tidies
    up the program opens a file, which gets the number of the closed epoll instance; a second
    Watch succeeds; Close. *)
Example C87_ex : ∃ s s1 s2, fsteps PKeeps false (finit std) [OWatch false; OWatch true] s1 ∧ f_pc s1 = Rest ∧ held s1 = {[3 := Ino; 5 := Epo; 6 := PipR; 7 := PipW]} ∧ theirs s1 4 ∧
  fstep PKeeps false s (Some (OClose true)) s2 ∧ freach PKeeps false s ∧ held s2 = ∅ ∧ theirs s2 4 ∧ unused (f_tab s2) 3.
Proof.
  eassert (fsteps PKeeps false (finit std) [OWatch false; OWatch true] _) as K1.
  { change [OWatch false; OWatch true] with
      (option_list (@None fout) ++ option_list (@None fout) ++ option_list (@None fout) ++ option_list (@None fout) ++ option_list (@None fout) ++ option_list (@None fout) ++ option_list (@None fout) ++ option_list (Some (OWatch false)) ++
       option_list (@None fout) ++ option_list (@None fout) ++ option_list (@None fout) ++ option_list (@None fout) ++ option_list (Some (OWatch true)) ++ []).
    go; [apply (fs_init _ _ _ 3); [done|fresh_number]|]. go; [apply (fs_epoll _ _ _ 4); fresh_number|]. go; [by apply fs_nopipe|].
    go; [eapply fs_f1, cf_ok; [done|]; now_used|]. go; [apply (fs_open _ _ _ 4); fresh_number|].
    go; [eapply fs_f2, cf_none; done|]. go; [eapply fs_f3, cf_none; done|]. go; [eapply fs_f4; now_used|].
    go; [apply (fs_init _ _ _ 3); [done|fresh_number]|]. go; [apply (fs_epoll _ _ _ 5); fresh_number|].
    go; [apply (fs_pipe _ _ _ 6 7); [fresh_number|fresh_number|done]|]. go; [apply (fs_ctl1 _ _ _ _ _ _ _ _ _ true)|]. go; [apply fs_ctl2|]. apply fsteps_0. }
  match type of K1 with fsteps _ _ _ _ ?x => eassert (fsteps PKeeps false x [] _) as K2 end.
  { change (@nil fout) with (option_list (@None fout) ++ option_list (@None fout) ++ option_list (@None fout) ++ option_list (@None fout) ++ []).
    go; [by apply fs_write|]. go; [eapply fs_shut; now_used|]. rewrite decide_False by done.
    go; [eapply fs_s1, cf_ok; [done|]; now_used|]. go; [eapply fs_s2, cf_ok; [done|]; now_used|]. apply fsteps_0. }
  match type of K2 with fsteps _ _ _ _ ?x => eassert (fstep PKeeps false x (Some (OClose true)) _) as K3 end.
  { eapply fs_s3; [eapply cf_ok; [done|]; now_used|done]. }
  eexists _, _, _. split_and!; [exact K1|done| | |exact K3| | | |].
  3: { eexists std, _. split; [exact std_nat|]. eapply fsteps_trans; [exact K1|exact K2]. }
  2,4,5: by vm_compute.
  all: apply (bool_decide_unpack _); by vm_compute.
Qed.
Print Assumptions C87_rightful_partial.
Print Assumptions C87_bounded_partial.
Print Assumptions C87_returned_partial.
Print Assumptions C87_asked_partial.
Print Assumptions C87_again_partial.
Print Assumptions C87_closed_partial.
Print Assumptions C87_zero_refuted.
Print Assumptions C87_intr_refuted.
