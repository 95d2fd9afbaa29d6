(** * C81: what the results of Watch and Unwatch of the kqueue and FEN watchers mean *)
From Verif Require Import Base Event Paths Clean SpecClean CleanFacts Trigger SpecTrigger TriggerFacts TriggerTab TriggerRun TriggerRoles TriggerEx SpecTriggerNil.
From Verif Require Prop_Trigger.
Local Open Scope N_scope.

Section single.
Context (T : trig).
Lemma reg_at_eq s p w : tw_at s p = Some w → reg_at T s p = ts_reg s !! ident_of T w.
Proof. intros H. unfold reg_at. by rewrite H. Qed.
Definition direct_of (m : mode) (e : N) : N := match m with MNDir => 0 | _ => e end.
Definition member_of (m : mode) (e : N) : N := match m with MDir => 0 | _ => e end.
Lemma sw_at s A p e m d s' r : tinv T s → fresh_fd A → singlewatch T s A p e m d = (s', r) → r = ROk ∨ r = RAlready →
  held_for T s' p (direct_at s p .| direct_of m e) (member_at s p .| member_of m e) d ∨ left_out T A s s' p.
Proof.
  intros Hi HA H Hr. unfold direct_at, member_at. destruct (ts_path s !! p) as [i|] eqn:Hp.
  - destruct (ti_path _ _ Hi p i Hp) as (w&Hw&Hwp&_). rewrite (tw_at_eq s p i w Hp Hw). rewrite (singlewatch_known T s A p e m d i w Hi Hp Hw) in H. left.
    destruct (a_watch A p); apply pair_equal_spec in H as [<- <-]; [|by destruct Hr..].
    assert (tw_at (watched_state T s i (add_role m e w) d) p = Some (add_role m e w)) as Ht by (apply (tw_at_eq _ p i); [exact Hp|apply lookup_insert]).
    assert (tw_e (add_role m e w) = (tw_eDir w .| direct_of m e) .| (tw_eNonDir w .| member_of m e)) as He.
    { unfold tw_e. destruct m; cbn [add_role tw_eDir tw_eNonDir direct_of member_of]; by rewrite ?N.lor_0_r. }
    split.
    + exists (add_role m e w). split; [exact Ht|]. destruct m; cbn [add_role tw_eDir tw_eNonDir direct_of member_of]; by rewrite ?N.lor_0_r.
    + rewrite (reg_at_eq _ _ _ Ht). unfold watched_state. cbn [ts_reg set_reg]. rewrite lookup_insert. by rewrite He.
  - assert (tw_at s p = None) as Hn by (by apply (tw_at_None T)). rewrite Hn, !N.lor_0_l.
    rewrite (singlewatch_new T s A p e m d Hp) in H. destruct (opens T A p) eqn:Ho; [|right|apply pair_equal_spec in H as [_ <-]; by destruct Hr..].
    + left. cbv zeta in H. destruct (a_watch A p); apply pair_equal_spec in H as [<- <-]; [|by destruct Hr..].
      set (w := add_role m e (new_tw T s A p d)).
      assert (tw_p w = p) as Hwp by (unfold w; by rewrite add_role_p).
      assert (tw_at (recorded_state T s A w d) p = Some w) as Ht.
      { apply (tw_at_eq _ p (ts_next s)); [|apply lookup_insert]. unfold recorded_state, record. cbn [ts_path]. rewrite Hwp. apply lookup_insert. }
      assert (tw_e w = direct_of m e .| member_of m e) as He.
      { unfold tw_e, w. destruct m; cbn [add_role new_tw tw_eDir tw_eNonDir direct_of member_of]; by rewrite ?N.lor_0_l, ?N.lor_0_r. }
      split.
      * exists w. split; [exact Ht|]. unfold w. destruct m; cbn [add_role new_tw tw_eDir tw_eNonDir direct_of member_of]; by rewrite ?N.lor_0_l.
      * rewrite (reg_at_eq _ _ _ Ht). unfold recorded_state, record. cbn [ts_reg set_reg]. rewrite lookup_insert. by rewrite He.
    + apply pair_equal_spec in H as [<- _]. unfold opens in Ho. destruct (t_fds T) eqn:HT; [|done]. by split_and!.
Qed.
Definition keep_direct (m : mode) (x : N) : N := match m with MNDir => x | _ => 0 end.
Definition keep_member (m : mode) (x : N) : N := match m with MDir => x | _ => 0 end.
Lemma su_at s A p m s' : tinv T s → singleunwatch T s A p m = (s', ROk) →
  ∃ w, tw_at s p = Some w ∧ rest_for T s' p (keep_direct m (tw_eDir w)) (keep_member m (tw_eNonDir w)) (tw_dir w).
Proof.
  intros Hi H. destruct (ts_path s !! p) as [i|] eqn:Hp; [|unfold singleunwatch in H; by rewrite Hp in H].
  destruct (ti_path _ _ Hi p i Hp) as (w&Hw&Hwp&_). exists w. split; [by apply (tw_at_eq s p i w)|].
  rewrite (singleunwatch_known T s A p m i w Hi Hp Hw) in H. cbv zeta in H.
  assert (tinv T (unreg_state T s i (clear_role m w))) as K2 by (eapply unreg_inv; [done..|apply clear_role_p|apply clear_role_fd]).
  assert (ts_heap (unreg_state T s i (clear_role m w)) !! i = Some (clear_role m w)) as Hw' by apply lookup_insert.
  assert (tw_e (clear_role m w) = keep_direct m (tw_eDir w) .| keep_member m (tw_eNonDir w)) as He by (by destruct m).
  destruct (a_unwatch A p); [|by apply pair_equal_spec in H as [_ H]..].
  destruct (ts_reg s !! ident_of T w); [|by apply pair_equal_spec in H as [_ H]].
  unfold rest_for. rewrite <-He. destruct (N.eqb_spec (tw_e (clear_role m w)) 0) as [E|E]; cbn [negb] in H.
  - rewrite decide_True by done. apply pair_equal_spec in H as [<- _]. apply (tw_at_None T); [by eapply (del_inv _ _ p)|].
    unfold t_Del. rewrite Hw'. rewrite clear_role_p, Hwp. destruct (t_fds T); cbn [ts_path]; apply lookup_delete.
  - rewrite decide_False by done. destruct (a_watch A p); [|by apply pair_equal_spec in H as [_ H]..]. apply pair_equal_spec in H as [<- _].
    set (s2 := watched_state T (unreg_state T s i (clear_role m w)) i (clear_role m w) (tw_dir w)).
    assert (tw_at s2 p = Some (clear_role m w)) as Ht by (apply (tw_at_eq _ p i); [exact Hp|apply lookup_insert]).
    split.
    + exists (clear_role m w). split; [done|]. by destruct m.
    + rewrite (reg_at_eq _ _ _ Ht). unfold s2, watched_state. cbn [ts_reg set_reg]. rewrite lookup_insert. by rewrite He.
Qed.

(** ** Walks *)
Lemma unchanged_of s s' q : same_at T s s' q → unchanged_at T s s' q.
Proof. by intros [_ ? ?]. Qed.
Lemma held_same s s' q x y d : same_at T s s' q → held_for T s q x y d → held_for T s' q x y d.
Proof. intros [_ H1 H2]. unfold held_for. by rewrite H1, H2. Qed.
Lemma rest_same s s' q x y d : same_at T s s' q → rest_for T s q x y d → rest_for T s' q x y d.
Proof. intros Hs. unfold rest_for. case_decide; [by intros <-; apply Hs|by apply held_same]. Qed.
Lemma at_same s s' q : same_at T s s' q → direct_at s' q = direct_at s q ∧ member_at s' q = member_at s q.
Proof. intros [_ H _]. unfold direct_at, member_at. by rewrite H. Qed.
Lemma walk_watch A p e ls : fresh_fd A → NoDup (entries p ls) → ∀ s s', tinv T s →
  walk_fold (watch_entry T A p e) s ls = (s', ROk) →
  tinv T s' ∧ (∀ q, q ∉ entries p ls → same_at T s s' q) ∧
  ∀ fi, fi ∈ ls → let q := join p (fi_name fi) in
    held_for T s' q (direct_at s q) (member_at s q .| e) (fi_dir fi) ∨ left_out T A s s' q.
Proof.
  intros HA. induction ls as [|fi ls IH]; intros Hnd s s' Hi H.
  - apply pair_equal_spec in H as [<- _]. split_and!; [done|by intros; apply same_refl|by intros ? ?%elem_of_nil].
  - cbn [walk_fold] in H. unfold watch_entry in H at 1. cbn [entries fmap list_fmap] in Hnd. apply NoDup_cons in Hnd as [Hn Hnd].
    destruct (singlewatch T s A (join p (fi_name fi)) e MNDir (fi_dir fi)) as [s1 r1] eqn:E.
    assert (r1 = ROk ∨ r1 = RAlready) as Hr by (destruct r1; auto; by apply pair_equal_spec in H as [_ H]).
    pose proof (singlewatch_inv T s A _ e MNDir _ s1 r1 Hi HA E) as Hi1.
    assert (walk_fold (watch_entry T A p e) s1 ls = (s', ROk)) as H' by (by destruct Hr as [-> | ->]). clear H.
    destruct (IH Hnd s1 s' Hi1 H') as (Hi'&Hs'&He'). split_and!; [done| |].
    + intros q Hq. cbn [entries fmap list_fmap] in Hq. apply not_elem_of_cons in Hq as [Hq1 Hq2]. eapply same_trans; [by eapply (singlewatch_same T s A _ e MNDir _ s1 r1)|]. by apply Hs'.
    + intros f [->|Hf]%elem_of_cons; cbv zeta.
      * pose proof (Hs' _ Hn) as Hsame. destruct (sw_at s A _ e MNDir _ s1 r1 Hi HA E Hr) as [K|(K1&K2&K3&K4)].
        -- left. cbn [direct_of member_of] in K. rewrite N.lor_0_r in K. by eapply held_same.
        -- right. split_and!; [done..|]. by rewrite (sa_tw _ _ _ _ Hsame).
      * assert (join p (fi_name f) ∈ entries p ls) as Hin by (apply elem_of_list_fmap; by exists f).
        assert (same_at T s s1 (join p (fi_name f))) as Hsame by (eapply (singlewatch_same T s A _ e MNDir _ s1 r1); [done..|]; intros Heq; apply Hn; by rewrite Heq).
        destruct (at_same _ _ _ Hsame) as [A1 A2]. destruct (He' f Hf) as [K|(K1&K2&K3&K4)].
        -- left. by rewrite A1, A2 in K.
        -- right. split_and!; [done|done| |done]. by rewrite <-(sa_tw _ _ _ _ Hsame).
Qed.
Lemma walk_unwatch A p ls : NoDup (entries p ls) → ∀ s s', tinv T s →
  walk_fold (unwatch_entry T A p) s ls = (s', ROk) →
  tinv T s' ∧ (∀ q, q ∉ entries p ls → same_at T s s' q) ∧
  ∀ fi, fi ∈ ls → let q := join p (fi_name fi) in
    match tw_at s q with Some w => rest_for T s' q (tw_eDir w) 0 (tw_dir w) | None => tw_at s' q = None end.
Proof.
  induction ls as [|fi ls IH]; intros Hnd s s' Hi H.
  - apply pair_equal_spec in H as [<- _]. split_and!; [done|by intros; apply same_refl|by intros ? ?%elem_of_nil].
  - cbn [walk_fold] in H. unfold unwatch_entry in H at 1. cbn [entries fmap list_fmap] in Hnd. apply NoDup_cons in Hnd as [Hn Hnd].
    destruct (singleunwatch T s A (join p (fi_name fi)) MNDir) as [s1 r1] eqn:E.
    assert (r1 = ROk ∨ r1 = RNotWatched) as Hr by (destruct r1; auto; by apply pair_equal_spec in H as [_ H]).
    pose proof (singleunwatch_inv T s A _ MNDir s1 r1 Hi E) as Hi1.
    assert (walk_fold (unwatch_entry T A p) s1 ls = (s', ROk)) as H' by (by destruct Hr as [-> | ->]). clear H.
    destruct (IH Hnd s1 s' Hi1 H') as (Hi'&Hs'&He'). split_and!; [done| |].
    + intros q Hq. cbn [entries fmap list_fmap] in Hq. apply not_elem_of_cons in Hq as [Hq1 Hq2]. eapply same_trans; [by eapply (singleunwatch_same T s A _ MNDir s1 r1)|]. by apply Hs'.
    + intros f [->|Hf]%elem_of_cons; cbv zeta.
      * pose proof (Hs' _ Hn) as Hsame. destruct Hr as [-> | ->].
        -- destruct (su_at s A _ MNDir s1 Hi E) as (w&Hw&K). rewrite Hw. by eapply rest_same.
        -- destruct (ts_path s !! join p (fi_name fi)) as [i|] eqn:Hp.
           ++ exfalso. destruct (ti_path _ _ Hi _ i Hp) as (w&Hw&_). rewrite (singleunwatch_known T s A _ MNDir i w Hi Hp Hw) in E. cbv zeta in E.
              destruct (a_unwatch A (join p (fi_name fi))); [|by apply pair_equal_spec in E as [_ E]..].
              destruct (ts_reg s !! ident_of T w); [|by apply pair_equal_spec in E as [_ E]].
              destruct (nonzero (tw_e (clear_role MNDir w))); [|by apply pair_equal_spec in E as [_ E]].
              destruct (a_watch A (join p (fi_name fi))); by apply pair_equal_spec in E as [_ E].
           ++ assert (tw_at s (join p (fi_name fi)) = None) as Hnone by (by apply (tw_at_None T)). rewrite Hnone, (sa_tw _ _ _ _ Hsame).
              unfold singleunwatch in E. rewrite Hp in E. by apply pair_equal_spec in E as [<- _].
      * assert (same_at T s s1 (join p (fi_name f))) as Hsame.
        { eapply (singleunwatch_same T s A _ MNDir s1 r1); [done..|]. intros Heq. apply Hn. rewrite Heq. apply elem_of_list_fmap. by exists f. }
        specialize (He' f Hf). cbv zeta in He'. by rewrite (sa_tw _ _ _ _ Hsame) in He'.
Qed.
End single.

(** ** C81 *)
(** A path that does not exist: Watch and Unwatch fail and nothing changes. *)
Theorem C81_missing T tr s A p e r s' : texec T tr s →
  tstep T s (TWatch None A p e r) s' ∨ tstep T s (TUnwatch None A p r) s' → r = RErr ∧ s' = s.
Proof. intros _ [H|H]; inversion H as [? ? ? ? ? ? E|? ? ? ? ? E| |]; subst; by apply pair_equal_spec in E as [-> ->]. Qed.
(** In every history, whatever the OS answers: a Watch that returns nil was given a path that
    exists; the path is watched for the events given on top of what it was watched for; if it
    is a directory it could be read, and every entry is watched as a member for these events on
    top of what it was watched for.  Except that what the OS cannot open (kqueue) is left
    out.  Nothing else changes. *)
Theorem C81_watch_partial T tr s st A p e s' : texec T tr s → fresh_fd A → distinct_names A p →
  tstep T s (TWatch st A p e ROk) s' →
  ∃ d, st = Some d ∧
    (held_for T s' p (direct_at s p .| e) (member_at s p) d ∨ left_out T A s s' p) ∧
    if d then ∃ ls, a_ls A p = Some ls ∧
      (∀ fi, fi ∈ ls → let q := join p (fi_name fi) in
        held_for T s' q (direct_at s q) (member_at s q .| e) (fi_dir fi) ∨ left_out T A s s' q) ∧
      ∀ q, q ≠ p → q ∉ entries p ls → unchanged_at T s s' q
    else ∀ q, q ≠ p → unchanged_at T s s' q.
Proof.
  intros Hx HA Hd H. apply texec_inv in Hx as Hi. inversion H as [? ? ? ? ? ? E| | |]; subst. destruct st as [d|]; [|done]. exists d. split; [done|].
  unfold trg_Watch, trg_watch in E. destruct (singlewatch T s A p e MDir d) as [s1 r1] eqn:E1.
  assert (r1 = ROk ∨ r1 = RAlready) as Hr by (destruct r1; auto; by apply pair_equal_spec in E as [_ E]).
  pose proof (singlewatch_inv T s A p e MDir d s1 r1 Hi HA E1) as Hi1.
  pose proof (sw_at T s A p e MDir d s1 r1 Hi HA E1 Hr) as K. cbn [direct_of member_of] in K. rewrite N.lor_0_r in K.
  assert (∀ q, q ≠ p → same_at T s s1 q) as Hs1 by (intros q Hq; by eapply (singlewatch_same T s A p e MDir d s1 r1)).
  assert ((if d then walk s1 A p (watch_entry T A p e) else (s1, ROk)) = (s', ROk)) as E' by (by destruct Hr as [-> | ->]). clear E.
  destruct d.
  - unfold walk in E'. destruct (a_ls A p) as [ls|] eqn:Hls; [|done]. apply Hd in Hls as Hnd. apply NoDup_cons in Hnd as [Hn Hnd].
    destruct (walk_watch T A p e ls HA Hnd s1 s' Hi1 E') as (_&Hs'&He'). split.
    + pose proof (Hs' p Hn) as Hsame. destruct K as [K|(K1&K2&K3&K4)]; [left; by eapply held_same|right]. split_and!; [done..|]. by rewrite (sa_tw _ _ _ _ Hsame).
    + exists ls. split; [done|]. split.
      * intros fi Hfi q. assert (q ∈ entries p ls) as Hin by (apply elem_of_list_fmap; by exists fi).
        assert (same_at T s s1 q) as Hsame by (apply Hs1; by intros ->).
        destruct (at_same _ _ _ _ Hsame) as [A1 A2]. specialize (He' fi Hfi). cbv zeta in He'. fold q in He'. destruct He' as [K'|(K1&K2&K3&K4)].
        -- left. by rewrite A1, A2 in K'.
        -- right. split_and!; [done|done| |done]. by rewrite <-(sa_tw _ _ _ _ Hsame).
      * intros q Hq Hq'. apply unchanged_of. eapply same_trans; [by apply Hs1|by apply Hs'].
  - apply pair_equal_spec in E' as [<- _]. split; [done|]. intros q Hq. by apply unchanged_of, Hs1.
Qed.
(** An Unwatch that returns nil was given a path that exists and was watched; it is watched
    no more directly, and the entries it has no more as its members; what they are watched for
    otherwise they still are, and nothing else changes. *)
Theorem C81_unwatch T tr s st A p s' : texec T tr s → distinct_names A p →
  tstep T s (TUnwatch st A p ROk) s' →
  ∃ d w, st = Some d ∧ tw_at s p = Some w ∧ rest_for T s' p 0 (tw_eNonDir w) (tw_dir w) ∧
    if d then ∃ ls, a_ls A p = Some ls ∧
      (∀ fi, fi ∈ ls → let q := join p (fi_name fi) in
        match tw_at s q with Some x => rest_for T s' q (tw_eDir x) 0 (tw_dir x) | None => tw_at s' q = None end) ∧
      ∀ q, q ≠ p → q ∉ entries p ls → unchanged_at T s s' q
    else ∀ q, q ≠ p → unchanged_at T s s' q.
Proof.
  intros Hx Hd H. apply texec_inv in Hx as Hi. inversion H as [|? ? ? ? ? E| |]; subst. destruct st as [d|]; [|done]. exists d.
  unfold trg_Unwatch, trg_unwatch in E. destruct d.
  - unfold walk in E. destruct (a_ls A p) as [ls|] eqn:Hls; [|done]. apply Hd in Hls as Hnd. apply NoDup_cons in Hnd as [Hn Hnd].
    destruct (walk_fold (unwatch_entry T A p) s ls) as [s1 r1] eqn:E1. destruct r1; try done.
    destruct (walk_unwatch T A p ls Hnd s s1 Hi E1) as (Hi1&Hs1&He1).
    destruct (su_at T s1 A p MDir s' Hi1 E) as (w&Hw&K). exists w. split; [done|]. rewrite (sa_tw _ _ _ _ (Hs1 p Hn)) in Hw. split; [done|]. split; [exact K|].
    assert (∀ q, q ≠ p → same_at T s1 s' q) as Hs' by (intros q Hq; by eapply (singleunwatch_same T s1 A p MDir s' ROk)).
    exists ls. split; [done|]. split.
    + intros fi Hfi q. assert (q ∈ entries p ls) as Hin by (apply elem_of_list_fmap; by exists fi).
      assert (same_at T s1 s' q) as Hsame by (apply Hs'; by intros ->). specialize (He1 fi Hfi). cbv zeta in He1. fold q in He1.
      destruct (tw_at s q); [by eapply rest_same|]. by rewrite (sa_tw _ _ _ _ Hsame).
    + intros q Hq Hq'. apply unchanged_of. eapply same_trans; [by apply Hs1|by apply Hs'].
  - destruct (su_at T s A p MDir s' Hi E) as (w&Hw&K). exists w. split; [done|]. split; [done|]. split; [exact K|].
    intros q Hq. apply unchanged_of. by eapply (singleunwatch_same T s A p MDir s' ROk).
Qed.
Import Prop_Trigger.
(** Without the exception: on kqueue the Watch of a socket returns nil and nothing is watched. *)
Definition sock_cmds : list cmd := [XWatch (Some false) (skipping (λ p, bool_decide (p = px)) (only pd [])) px (Write kqueue)].
Theorem C81_socket_refuted : ∃ tr s, texec kq tr s ∧ tr = [TWatch (Some false) (skipping (λ p, bool_decide (p = px)) (only pd [])) px (Write kqueue) ROk] ∧
  tw_at s px = None ∧ ts_reg s = ∅ ∧ ts_open s = ∅.
Proof.
  exists (run kq sock_cmds).1, (run kq sock_cmds).2. split; [apply run_texec; fresh_fds|]. split; [by vm_compute|].
  split; [by vm_compute|]. split; apply (bool_decide_unpack _); by vm_compute.
Qed.
(** The hypotheses: /d with x in it is watched, then unwatched. *)
Definition nil_cmds (T : trig) : list cmd :=
  [XWatch (Some true) (kind (only pd [fx; fy])) pd (Create (t_plat T)); XWatch (Some false) (kind (only pd [])) px (Write (t_plat T)); XUnwatch (Some true) (kind (only pd [fx; fy])) pd].
Definition nil_ret (l : tlabel) : option res := match l with TWatch _ _ _ _ r | TUnwatch _ _ _ r => Some r | _ => None end.
Example C81_hyps : (nil_ret <$> (run kq (nil_cmds kq)).1) = [Some ROk; Some ROk; Some ROk] ∧ distinct_names (kind (only pd [fx; fy])) pd ∧
  ((λ w, (tw_eDir w, tw_eNonDir w)) <$> tw_at (run kq (take 2 (nil_cmds kq))).2 px) = Some (Write kqueue, Create kqueue) ∧
  ((λ w, (tw_eDir w, tw_eNonDir w)) <$> tw_at (run kq (nil_cmds kq)).2 px) = Some (Write kqueue, 0) ∧ tw_at (run kq (nil_cmds kq)).2 py = None.
Proof.
  split; [by vm_compute|]. split.
  { intros ls Hls. assert (ls = [fx; fy]) as -> by (assert (Some ls = Some [fx; fy]) as [=]; [rewrite <-Hls; by vm_compute|done]). apply (bool_decide_unpack _). by vm_compute. }
  split_and!; by vm_compute.
Qed.
Print Assumptions C81_missing.
Print Assumptions C81_watch_partial.
Print Assumptions C81_unwatch.
Print Assumptions C81_socket_refuted.
