(** * NonRecFwd: which events dispatch passes on to [internal] *)
From Verif Require Import Base Event Watchpoint WatchpointFacts Paths PathsFacts Loop LoopFacts
  Node NodeFacts SpecTree WalkFacts RootFacts NonRec NonRecWp SpecNonRec SpecNonRecOS NonRecFacts NonRecOps NonRecReg
  NonRecStep NonRecDisp NonRecStop NonRecOS NonRecCov.
Local Open Scope N_scope.

Section fwd.
Context (P : platform) (HP : platform_ok P) (sepc : ascii).
Notation render := (render sepc).
Notation nenv := (nenv P sepc).
Notation tinv := (tinv P sepc).

(** The creation or removal of a directory. *)
Definition dir_event (ei : event_info) : Prop :=
  ei_event ei .& (Create P .| Remove P) ≠ 0 ∧ ei_isdir ei = Some true.

Lemma prefix_take (p q : path) : q `prefix_of` p ↔ ∃ k, (k ≤ length p)%nat ∧ q = take k p.
Proof.
  split.
  - intros [r ->]. exists (length q). rewrite app_length. split; [lia|]. by rewrite take_app.
  - intros (k&_&->). exists (drop k p). by rewrite take_drop.
Qed.
Lemma fold_isrec E t ei p d :
  nenv E →
  let r := foldl (λ a n, (dispatch_fn E t ei a (take n p) (bool_decide (n = length p))).1) (DAcc [] false None) (seq 0 (S d)) in
  (da_isrec r = true ↔ ∃ k, (k ≤ d)%nat ∧ isRecursive P (wp_at t (take k p)) = true) ∧
  (d = length p → da_nd r = Some p).
Proof.
  intros HE. cbn zeta. induction d as [|d [IH _]].
  - cbn [seq foldl]. unfold dispatch_fn. rewrite (ne_plat _ _ _ HE). split.
    + case_bool_decide; cbn [fst da_isrec]; rewrite orb_false_l.
      * split; [intros H'; exists 0%nat; split; [lia|done]|]. intros (k&Hk&Hr). by replace k with 0%nat in Hr by lia.
      * split; [intros H'; exists 0%nat; split; [lia|done]|]. intros (k&Hk&Hr). by replace k with 0%nat in Hr by lia.
    + intros Hl. rewrite bool_decide_true by done. cbn [fst da_nd]. symmetry in Hl. by apply nil_length_inv in Hl as ->.
  - rewrite seq_S, foldl_app. set (r := foldl _ _ _) in *. simpl (0 + S d)%nat. cbn [foldl].
    unfold dispatch_fn at 1 2. rewrite (ne_plat _ _ _ HE). split.
    + assert (∀ b : bool, b = da_isrec r || isRecursive P (wp_at t (take (S d) p)) →
        b = true ↔ ∃ k, (k ≤ S d)%nat ∧ isRecursive P (wp_at t (take k p)) = true) as Hx.
      { intros b ->. rewrite orb_true_iff, IH. split.
        - intros [(k&Hk&Hr)|Hr]; [exists k; split; [lia|done]|exists (S d); split; [lia|done]].
        - intros (k&Hk&Hr). destruct (decide (k = S d)) as [->|]; [by right|left; exists k; split; [lia|done]]. }
      case_bool_decide; cbn [fst da_isrec]; by apply Hx.
    + intros Hl. rewrite bool_decide_true by done. cbn [fst da_nd]. by rewrite Hl, firstn_all.
Qed.

Lemma isRec_missing t q : t !! q = None → isRecursive P (wp_at t q) = false.
Proof. intros H. unfold wp_at. rewrite H. done. Qed.

Lemma dispatch_fwd E t ei d c :
  nenv E → tinv t → upath sepc d → comp_ok sepc c → ei_path ei = render (d ++ [c]) →
  (nr_dispatch E t ei).2 = true ↔
    is_Some (t !! d) ∧ (∃ q, q `prefix_of` d ++ [c] ∧ isRecursive P (wp_at t q) = true) ∧ dir_event ei.
Proof.
  intros HE Ht Hd Hc Hpath. unfold nr_dispatch. rewrite Hpath, (ne_sep _ _ _ HE), split_render by done.
  destruct (walkpath_cnil P sepc E (dispatch_fn E t ei) t d (DAcc [] false None) HE Ht Hd)
    as (k&Hk&Hpre&Hmiss&Hw).
  { intros a q b. unfold dispatch_fn. by destruct b. }
  rewrite (ne_sep _ _ _ HE) in Hw. rewrite Hw.
  destruct (fold_isrec E t ei d k HE) as [H1 H4].
  set (r := foldl _ _ _) in *. rewrite (ne_plat _ _ _ HE).
  destruct (decide (k = length d)) as [Hkd|Hkd].
  2:{ cbn [snd]. split; [done|]. intros ([nd Hnd]&_). specialize (Hmiss ltac:(lia)).
      destruct (closed_prefix t (take (S k) d) d (tinv_closed _ _ _ Ht)) as [x Hx]; [|eauto|congruence].
      exists (drop (S k) d). by rewrite take_drop. }
  rewrite (H4 Hkd). change (default [] (Some d)) with d. cbv zeta.
  assert (is_Some (t !! d)) as Hsd.
  { specialize (Hpre k ltac:(lia)). by rewrite Hkd, firstn_all in Hpre. }
  assert (da_isrec r || isRecursive P (wp_at t d) = true ↔ ∃ q, q `prefix_of` d ∧ isRecursive P (wp_at t q) = true) as Hd1.
  { rewrite orb_true_iff, H1. split.
    - intros [(j&Hj&Hr)|Hr]; [exists (take j d); split; [|done]; exists (drop j d); by rewrite take_drop|by exists d].
    - intros (q&(j&Hj&->)%prefix_take&Hr). left. exists j. split; [lia|done]. }
  assert (∀ b : bool, (b = true ↔ ∃ q, q `prefix_of` d ++ [c] ∧ isRecursive P (wp_at t q) = true) →
    b && negb (ei_event ei .& (Create P .| Remove P) =? 0) && match ei_isdir ei with Some true => true | _ => false end = true ↔
    is_Some (t !! d) ∧ (∃ q, q `prefix_of` d ++ [c] ∧ isRecursive P (wp_at t q) = true) ∧ dir_event ei) as Hfin.
  { intros b Hb. rewrite !andb_true_iff, Hb, negb_true_iff, N.eqb_neq. unfold dir_event.
    assert (match ei_isdir ei with Some true => true | _ => false end = true ↔ ei_isdir ei = Some true) as ->
      by (by destruct (ei_isdir ei) as [[]|]).
    tauto. }
  assert (∀ q, q `prefix_of` d ++ [c] ↔ q `prefix_of` d ∨ q = d ++ [c]) as Hpc.
  { intros q. split.
    - intros [x Hx]. destruct x as [|y x _] using rev_ind; [right; by rewrite app_nil_r in Hx|].
      rewrite app_assoc in Hx. apply app_inj_tail in Hx as [-> _]. left. by exists x.
    - intros [Hx| ->]; [by apply prefix_app_r|done]. }
  destruct (t !! (d ++ [c])) as [nd|] eqn:Ec; cbv beta iota zeta; cbn [snd]; apply Hfin.
  - rewrite orb_true_iff, Hd1. split.
    + intros [(q&Hq&Hr)|Hr]; [exists q; rewrite Hpc; eauto|exists (d ++ [c]); split; [done|done]].
    + intros (q&[Hq| ->]%Hpc&Hr); [left; eauto|by right].
  - rewrite Hd1. split.
    + intros (q&Hq&Hr). exists q. rewrite Hpc. eauto.
    + intros (q&[Hq| ->]%Hpc&Hr); [eauto|]. by rewrite isRec_missing in Hr.
Qed.

Lemma isRec_bits wp : isRecursive P wp = true ↔ ∃ i, has (recursive P) i ∧ has (wget wp KNil) i.
Proof.
  unfold isRecursive. rewrite negb_true_iff, N.eqb_neq. split.
  - intros [i Hi]%nonzero_bit. apply has_land in Hi as [? ?]. eauto.
  - intros (i&H1&H2) Hz. assert (has 0 i) as Hx by (rewrite <-Hz; by apply has_land). by apply has_0 in Hx.
Qed.

(** A directory created or removed below a recursive watch in force. *)
Lemma fexec_forwards tr D s a n e E ei d c :
  fexec P sepc tr D s → in_force P tr a n e → nenv E → d ∈ D → a `prefix_of` d → comp_ok sepc c →
  ei_path ei = render (d ++ [c]) → dir_event ei → (nr_dispatch E (st_tree s) ei).2 = true.
Proof.
  intros Hx Hf HE HdD Had Hc Hpath Hde. destruct (fexec_in_force P HP sepc _ _ _ _ _ _ Hx Hf) as (_&_&_&r&Hr&_).
  destruct (fexec_inv P HP sepc _ _ _ Hx) as (HD&Ht&[H0 Hcov]&_).
  assert (a ≠ []) as Ha0 by (intros ->; congruence).
  assert (a ∈ D) as HaD by (by eapply dirs_prefix).
  destruct (Hcov a d r HaD HdD Had Hr) as (r'&Hr'&_).
  apply (dispatch_fwd E (st_tree s) ei d c HE Ht); [by apply (gpath_upath P HP), HD|done|done|].
  assert (∀ q r0, rec_at s q = Some r0 → is_Some (st_tree s !! q) ∧ isRecursive P (wp_at (st_tree s) q) = true) as Hq.
  { intros q r0 Hq. unfold rec_at in Hq. split.
    - destruct (st_tree s !! q) eqn:Eq; [eauto|]. unfold wp_at in Hq. rewrite Eq in Hq. simpl in Hq. by rewrite lookup_empty in Hq.
    - pose proof (tinv_wp_at _ _ _ q Ht) as Hwp. pose proof (wo_rec _ _ Hwp _ Hq) as Hrb.
      destruct (proj1 (nonzero_bit _) (nz_re P HP)) as [i Hi]. apply isRec_bits. exists i. split; [done|].
      rewrite (agg_ok_get P) by apply Hwp. apply has_ldiff. split.
      + apply has_others. exists KRec, r0. split_and!; [done..|]. apply Hrb. unfold recbits. apply has_lor. by right.
      + pose proof (d_re_om P HP) as Hd'. intros Ho. by apply (Hd' i). }
  split_and!.
  - by apply (Hq d r').
  - exists a. split; [by apply prefix_app_r|by apply (Hq a r)].
  - done.
Qed.
End fwd.
