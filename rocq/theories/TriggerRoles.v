(** * TriggerRoles: orderly histories and the two roles of a path. *)
From Verif Require Import Base Event Paths Clean Trigger SpecTrigger TriggerFacts TriggerTab TriggerRun.
Local Open Scope N_scope.

Section roles.
Context (T : trig).

(** ** One path, the OS being willing *)
Definition tw_or_new (s : tstate) (A : answers) (p : str) (d : bool) : tw := default (new_tw T s A p d) (tw_at s p).
Lemma singlewatch_ok s A p e m d s' r : tinv T s → fresh_fd A → opens T A p = NewOk → a_watch A p = SOk → singlewatch T s A p e m d = (s', r) →
  let x := add_role m e (tw_or_new s A p d) in
  tw_at s' p = Some x ∧ reg_at T s' p = Some (t_encode T (tw_e x) d) ∧ r = (if decide (is_Some (ts_path s !! p)) then RAlready else ROk).
Proof.
  intros Hi HA Ho Hk H. cbv zeta. unfold tw_or_new. destruct (ts_path s !! p) as [i|] eqn:Hp.
  - destruct (ti_path _ _ Hi p i Hp) as (w&Hw&Hwp&_). rewrite (singlewatch_known T s A p e m d i w Hi Hp Hw), Hk in H.
    rewrite (tw_at_eq s p i w Hp Hw). cbn [default]. apply pair_equal_spec in H as [<- <-].
    assert (tw_at (watched_state T s i (add_role m e w) d) p = Some (add_role m e w)) as K.
    { eapply tw_at_eq; [exact Hp|]. apply lookup_insert. }
    split; [done|]. split; [|by rewrite decide_True by eauto]. unfold reg_at. rewrite K. cbn [mbind option_bind]. apply lookup_insert.
  - rewrite (singlewatch_new T s A p e m d Hp), Ho, Hk in H. cbv zeta in H. apply pair_equal_spec in H as [<- <-].
    assert (tw_at s p = None) as -> by (by apply (tw_at_None T)). cbn [default]. set (x := add_role m e (new_tw T s A p d)).
    assert (tw_at (recorded_state T s A x d) p = Some x) as K.
    { eapply tw_at_eq; cbn; [unfold x; rewrite add_role_p; apply lookup_insert|apply lookup_insert]. }
    split; [done|]. split; [|rewrite decide_False; [done|by intros [? ?]]]. unfold reg_at. rewrite K. cbn [mbind option_bind]. apply lookup_insert.
Qed.
Lemma singleunwatch_ok s A p m s' r w e : tinv T s → a_unwatch A p = SOk → a_watch A p = SOk → tw_at s p = Some w → reg_at T s p = Some e →
  singleunwatch T s A p m = (s', r) →
  r = ROk ∧ if tw_e (clear_role m w) =? 0 then tw_at s' p = None
            else tw_at s' p = Some (clear_role m w) ∧ reg_at T s' p = Some (t_encode T (tw_e (clear_role m w)) (tw_dir w)).
Proof.
  intros Hi Hu Hk Hat Hreg H. unfold reg_at in Hreg. rewrite Hat in Hreg. cbn [mbind option_bind] in Hreg.
  apply tw_at_Some in Hat as (i&Hp&Hw). rewrite (singleunwatch_known T s A p m i w Hi Hp Hw) in H. cbv zeta in H. rewrite Hu, Hreg, Hk in H.
  destruct (tw_e (clear_role m w) =? 0) eqn:He; cbn [negb] in H; apply pair_equal_spec in H as [<- <-]; (split; [done|]).
  - set (s1 := unreg_state T s i (clear_role m w)) in *.
    assert (ts_heap s1 !! i = Some (clear_role m w)) as Hw1 by apply lookup_insert.
    destruct (del_gone T s1 i _ Hw1) as (G&_&_). rewrite clear_role_p in G. destruct (ti_path _ _ Hi p i Hp) as (x&Hx&Hxp&_).
    rewrite Hw in Hx. injection Hx as <-. rewrite Hxp in G. unfold tw_at. by rewrite G.
  - match goal with |- tw_at ?s' p = _ ∧ _ => assert (tw_at s' p = Some (clear_role m w)) as K by (eapply tw_at_eq; [exact Hp|apply lookup_insert]) end.
    split; [done|]. unfold reg_at. rewrite K. cbn [mbind option_bind]. apply lookup_insert.
Qed.

(** ** Agreement *)
Context (ty : str → bool) (strict : bool).
Definition agree_at (f g : N) (s : tstate) (p : str) : Prop :=
  match tw_at s p with
  | Some w => tw_eDir w = f ∧ tw_eNonDir w = g ∧ (strict = true → tw_e w ≠ 0) ∧ tw_dir w = ty p ∧ reg_at T s p = Some (t_encode T (tw_e w) (ty p))
  | None => f = 0 ∧ g = 0
  end.
Definition agrees (r : roles) (s : tstate) : Prop := ∀ p, agree_at (direct r p) (member r p) s p.
Lemma agree_same f g s s' p : same_at T s s' p → agree_at f g s p → agree_at f g s' p.
Proof. intros [_ H1 H2]. unfold agree_at. by rewrite H1, H2. Qed.
Lemma agrees_ext r r' s : (∀ p, direct r p = direct r' p ∧ member r p = member r' p) → agrees r s → agrees r' s.
Proof. intros H Ha p. destruct (H p) as [<- <-]. apply Ha. Qed.
Lemma willing_opens A p : willing A → opens T A p = NewOk.
Proof. intros HA. unfold opens. destruct (t_fds T); [|done]. apply (wl_new _ HA). Qed.
Lemma agree_add s A p e m s' r f g : willing A → tinv T s → (strict = true → e ≠ 0) → agree_at f g s p → singlewatch T s A p e m (ty p) = (s', r) →
  (r = ROk ∨ r = RAlready) ∧
  agree_at (match m with MNDir => f | _ => f .| e end) (match m with MDir => g | _ => g .| e end) s' p.
Proof.
  intros HA Hi He Ha H.
  destruct (singlewatch_ok s A p e m (ty p) s' r Hi (wl_fd _ HA) (willing_opens A p HA) (wl_watch _ HA p) H) as (H1&H2&H3).
  split; [rewrite H3; destruct (decide _); auto|].
  assert (∀ x y, x .| y = 0 → y = 0) as K by (intros x y [_ ?]%N.lor_eq_0_iff; done).
  assert (∀ x y, x .| y = 0 → x = 0) as K' by (intros x y [? _]%N.lor_eq_0_iff; done).
  unfold agree_at in *. rewrite H1, H2. unfold tw_or_new in *. destruct (tw_at s p) as [w|]; cbn [default].
  - destruct Ha as (Ha1&Ha2&Ha3&Ha4&Ha5). rewrite add_role_dir. rewrite <-Ha1, <-Ha2.
    split_and!; try done; destruct m; unfold tw_e in *; cbn [add_role tw_eDir tw_eNonDir]; try done; intros Hst Hz; apply (He Hst); clear - Hz K K'; eauto.
  - destruct Ha as [-> ->]. rewrite add_role_dir. split_and!; try done; destruct m; unfold tw_e; cbn [add_role new_tw tw_eDir tw_eNonDir]; try done;
      rewrite ?N.lor_0_l, ?N.lor_0_r, ?N.lor_diag; done.
Qed.
Lemma agree_del s A p m s' r f g : willing A → tinv T s → agree_at f g s p → singleunwatch T s A p m = (s', r) →
  r = (if decide (is_Some (tw_at s p)) then ROk else RNotWatched) ∧
  agree_at (match m with MNDir => f | _ => 0 end) (match m with MDir => g | _ => 0 end) s' p.
Proof.
  intros HA Hi Ha H. unfold agree_at in Ha. destruct (tw_at s p) as [w|] eqn:Hat.
  - destruct Ha as (Ha1&Ha2&Ha3&Ha4&Ha5).
    destruct (singleunwatch_ok s A p m s' r w _ Hi (wl_unwatch _ HA p) (wl_watch _ HA p) Hat Ha5 H) as [H1 H2].
    split; [by rewrite decide_True by eauto|]. unfold agree_at. destruct (N.eqb_spec (tw_e (clear_role m w)) 0) as [Hz|Hz].
    + rewrite H2. unfold tw_e in Hz. destruct m; cbn [clear_role tw_eDir tw_eNonDir] in Hz; rewrite <-?Ha1, <-?Ha2; (split; [|try done]); try done;
      rewrite ?N.lor_0_l, ?N.lor_0_r in Hz; done.
    + destruct H2 as [-> ->]. rewrite clear_role_dir, Ha4. split_and!; try done; destruct m; done.
  - unfold singleunwatch in H. apply (tw_at_None T) in Hat as Hp; [|done]. rewrite Hp in H. apply pair_equal_spec in H as [<- <-].
    split; [rewrite decide_False; [done|by intros [? ?]]|]. unfold agree_at. rewrite Hat. destruct Ha as [-> ->]. by destruct m.
Qed.

(** ** Walks *)
Lemma walk_watch_agrees A p e ls s s' res r : willing A → (strict = true → e ≠ 0) → Forall (λ fi, fi_dir fi = ty (join p (fi_name fi))) ls →
  tinv T s → agrees r s → walk_fold (watch_entry T A p e) s ls = (s', res) →
  res = ROk ∧ agrees (Roles (direct r) (orl (member r) (entries p ls) e)) s'.
Proof.
  intros HA He. revert s r. induction ls as [|fi ls IH]; intros s r Hty Hi Ha H; cbn [walk_fold] in H.
  - apply pair_equal_spec in H as [<- <-]. split; [done|]. eapply agrees_ext; [|exact Ha]. intros q. split; [done|]. unfold orl. cbn. by rewrite decide_False by apply not_elem_of_nil.
  - apply Forall_cons in Hty as [Hd Hty]. destruct (watch_entry T A p e s fi) as [s1 r1] eqn:E.
    assert (tinv T s1) as H1 by (eapply watch_entry_inv; [apply (wl_fd _ HA)|done|exact E]).
    unfold watch_entry in E. rewrite Hd in E. set (q0 := join p (fi_name fi)) in *.
    destruct (singlewatch T s A q0 e MNDir (ty q0)) as [s2 r2] eqn:E2. apply pair_equal_spec in E as [<- <-].
    destruct (agree_add s A q0 e MNDir s2 r2 _ _ HA Hi He (Ha q0) E2) as [Hr Hq].
    assert (agrees (Roles (direct r) (orl (member r) [q0] e)) s2) as Ha2.
    { intros q. cbn. unfold orl. destruct (decide (q ∈ [q0])) as [->%elem_of_list_singleton|Hne]; [done|].
      eapply agree_same; [|exact (Ha q)]. eapply singlewatch_same; [done|apply (wl_fd _ HA)|exact E2|]. intros ->. apply Hne. by left. }
    replace (match r2 with RAlready => ROk | _ => r2 end) with ROk in H by (by destruct Hr as [-> | ->]).
    destruct (IH s2 _ Hty H1 Ha2 H) as [-> K]. split; [done|]. eapply agrees_ext; [|exact K]. intros q. split; [done|]. cbn. unfold orl.
    fold (entries p ls). fold q0.
    destruct (decide (q ∈ entries p ls)) as [Hin|Hin], (decide (q ∈ [q0])) as [Hq0|Hq0].
    + rewrite decide_True by (by right). rewrite <-N.lor_assoc. by rewrite N.lor_diag.
    + rewrite decide_True by (by right). done.
    + apply elem_of_list_singleton in Hq0 as ->. rewrite decide_True by left. done.
    + rewrite decide_False; [done|]. intros [->|?]%elem_of_cons; [apply Hq0; by left|done].
Qed.
Lemma walk_unwatch_agrees A p ls s s' res r : willing A → tinv T s → agrees r s → walk_fold (unwatch_entry T A p) s ls = (s', res) →
  res = ROk ∧ agrees (Roles (direct r) (clr (member r) (entries p ls))) s'.
Proof.
  intros HA. revert s r. induction ls as [|fi ls IH]; intros s r Hi Ha H; cbn [walk_fold] in H.
  - apply pair_equal_spec in H as [<- <-]. split; [done|]. eapply agrees_ext; [|exact Ha]. intros q. split; [done|]. unfold clr. cbn. by rewrite decide_False by apply not_elem_of_nil.
  - destruct (unwatch_entry T A p s fi) as [s1 r1] eqn:E.
    assert (tinv T s1) as H1 by (by eapply unwatch_entry_inv).
    unfold unwatch_entry in E. set (q0 := join p (fi_name fi)) in *.
    destruct (singleunwatch T s A q0 MNDir) as [s2 r2] eqn:E2. apply pair_equal_spec in E as [<- <-].
    destruct (agree_del s A q0 MNDir s2 r2 _ _ HA Hi (Ha q0) E2) as [Hr Hq].
    assert (agrees (Roles (direct r) (clr (member r) [q0])) s2) as Ha2.
    { intros q. cbn. unfold clr. destruct (decide (q ∈ [q0])) as [->%elem_of_list_singleton|Hne]; [done|].
      eapply agree_same; [|exact (Ha q)]. eapply singleunwatch_same; [done|exact E2|]. intros ->. apply Hne. by left. }
    replace (match r2 with RNotWatched => ROk | _ => r2 end) with ROk in H by (rewrite Hr; by destruct (decide _)).
    destruct (IH s2 _ H1 Ha2 H) as [-> K]. split; [done|]. eapply agrees_ext; [|exact K]. intros q. split; [done|]. cbn. unfold clr.
    fold (entries p ls). fold q0.
    destruct (decide (q ∈ entries p ls)) as [Hin|Hin], (decide (q ∈ [q0])) as [Hq0|Hq0].
    + by rewrite decide_True by (by right).
    + by rewrite decide_True by (by right).
    + apply elem_of_list_singleton in Hq0 as ->. by rewrite decide_True by left.
    + rewrite decide_False; [done|]. intros [->|?]%elem_of_cons; [apply Hq0; by left|done].
Qed.
Lemma watch_agrees A p e ls s s' res r : willing A → (strict = true → e ≠ 0) → listing ty A p ls → tinv T s → agrees r s →
  trg_watch T s A p e (ty p) = (s', res) → res = ROk ∧ agrees (role_watch r p ls e) s'.
Proof.
  intros HA He Hls Hi Ha H. unfold trg_watch in H. destruct (singlewatch T s A p e MDir (ty p)) as [s1 r1] eqn:E.
  destruct (agree_add s A p e MDir s1 r1 _ _ HA Hi He (Ha p) E) as [Hr Hp].
  assert (tinv T s1) as H1 by (eapply singlewatch_inv; [done|apply (wl_fd _ HA)|exact E]).
  assert (agrees (Roles (orl (direct r) [p] e) (member r)) s1) as Ha1.
  { intros q. cbn. unfold orl. destruct (decide (q ∈ [p])) as [->%elem_of_list_singleton|Hne]; [done|].
    eapply agree_same; [|exact (Ha q)]. eapply singlewatch_same; [done|apply (wl_fd _ HA)|exact E|]. intros ->. apply Hne. by left. }
  assert ((if ty p then walk s1 A p (watch_entry T A p e) else (s1, ROk)) = (s', res)) as H2 by (destruct Hr as [-> | ->]; done). clear H.
  unfold listing in Hls. destruct (ty p).
  - destruct Hls as [Hls Hty]. unfold walk in H2. rewrite Hls in H2. by destruct (walk_watch_agrees A p e ls s1 s' res _ HA He Hty H1 Ha1 H2) as [-> K].
  - subst ls. apply pair_equal_spec in H2 as [<- <-]. split; [done|]. eapply agrees_ext; [|exact Ha1]. intros q. split; [done|]. cbn. unfold orl.
    by rewrite decide_False by apply not_elem_of_nil.
Qed.
Lemma unwatch_agrees A p ls s s' res r : willing A → listing ty A p ls → tinv T s → agrees r s →
  trg_unwatch T s A p (ty p) = (s', res) → agrees (role_unwatch r p ls) s' ∧ (direct r p ≠ 0 → res = ROk).
Proof.
  intros HA Hls Hi Ha H. unfold trg_unwatch in H. destruct (if ty p then walk s A p (unwatch_entry T A p) else (s, ROk)) as [s1 r1] eqn:E.
  assert (tinv T s1 ∧ r1 = ROk ∧ agrees (Roles (direct r) (clr (member r) (entries p ls))) s1) as (H1&->&Ha1).
  { unfold listing in Hls. destruct (ty p).
    - destruct Hls as [Hls Hty]. unfold walk in E. rewrite Hls in E. split; [|by eapply walk_unwatch_agrees]. eapply walk_fold_inv; [done| |exact E].
      intros. by eapply unwatch_entry_inv.
    - subst ls. apply pair_equal_spec in E as [<- <-]. split; [done|]. split; [done|]. eapply agrees_ext; [|exact Ha]. intros q. split; [done|]. cbn. unfold clr.
      by rewrite decide_False by apply not_elem_of_nil. }
  destruct (agree_del s1 A p MDir s' res _ _ HA H1 (Ha1 p) H) as [Hr Hp]. split.
  - intros q. cbn. unfold clr at 1. destruct (decide (q ∈ [p])) as [->%elem_of_list_singleton|Hne]; [done|].
    eapply agree_same; [|exact (Ha1 q)]. eapply singleunwatch_same; [done|exact H|]. intros ->. apply Hne. by left.
  - intros Hd. rewrite Hr. destruct (decide (is_Some (tw_at s1 p))) as [|Hn]; [done|]. exfalso. apply Hd. pose proof (Ha1 p) as K. unfold agree_at in K. cbn in K.
    destruct (tw_at s1 p); [by destruct Hn|]. by destruct K.
Qed.

(** ** Events *)
Lemma process_subject s p w i : tinv T s → ts_path s !! p = Some i → ts_heap s !! i = Some w → t_Watched T s (ident_of T w) = Some i.
Proof.
  intros Hi Hp Hw. destruct (ti_path _ _ Hi p i Hp) as (x&Hx&Hxp&Hf). rewrite Hw in Hx. injection Hx as <-. unfold t_Watched, ident_of.
  destruct (t_fds T); [by apply Hf|]. by rewrite Hxp.
Qed.
(** FEN: the association is gone when the event is reported. *)
Lemma taken_same s p w i q : tinv T s → ts_path s !! p = Some i → ts_heap s !! i = Some w → p ≠ q →
  same_at T s (if t_fds T then s else set_reg s (delete (ident_of T w) (ts_reg s))) q.
Proof.
  intros Hi Hp Hw Hne. destruct (t_fds T) eqn:HT; [apply same_refl|]. eapply (same_reg T s p i w); [done|done|done|done|].
  intros k Hk. by rewrite lookup_delete_ne.
Qed.
Lemma rescan_agrees A p w e ls s s' evn evn' r : willing A → tw_p w = p → tw_eDir w = e → (strict = true → e ≠ 0) →
  Forall (λ fi, fi_dir fi = ty (join p (fi_name fi))) ls → tinv T s → agrees r s →
  foldl (rescan1 T A w) (s, evn) ls = (s', evn') → agrees (Roles (direct r) (orl (member r) (entries p ls) e)) s'.
Proof.
  intros HA Hwp Hwe He. revert s evn r. induction ls as [|fi ls IH]; intros s evn r Hty Hi Ha H; cbn [foldl] in H.
  - apply pair_equal_spec in H as [<- _]. eapply agrees_ext; [|exact Ha]. intros q. split; [done|]. unfold orl. cbn. by rewrite decide_False by apply not_elem_of_nil.
  - apply Forall_cons in Hty as [Hd Hty]. destruct (rescan1 T A w (s, evn) fi) as [s1 evn1] eqn:E.
    assert (tinv T s1) as H1 by (eapply rescan1_inv; [apply (wl_fd _ HA)|done|exact E]).
    unfold rescan1 in E. rewrite Hd, Hwp, Hwe in E. set (q0 := join p (fi_name fi)) in *.
    destruct (singlewatch T s A q0 e MNDir (ty q0)) as [s2 r2] eqn:E2. apply pair_equal_spec in E as [<- _].
    destruct (agree_add s A q0 e MNDir s2 r2 _ _ HA Hi He (Ha q0) E2) as [Hr Hq].
    assert (agrees (Roles (direct r) (orl (member r) [q0] e)) s2) as Ha2.
    { intros q. cbn. unfold orl. destruct (decide (q ∈ [q0])) as [->%elem_of_list_singleton|Hne]; [done|].
      eapply agree_same; [|exact (Ha q)]. eapply singlewatch_same; [done|apply (wl_fd _ HA)|exact E2|]. intros ->. apply Hne. by left. }
    pose proof (IH s2 _ _ Hty H1 Ha2 H) as K. eapply agrees_ext; [|exact K]. intros q. split; [done|]. cbn. unfold orl.
    fold (entries p ls). fold q0.
    destruct (decide (q ∈ entries p ls)) as [Hin|Hin], (decide (q ∈ [q0])) as [Hq0|Hq0].
    + rewrite decide_True by (by right). rewrite <-N.lor_assoc. by rewrite N.lor_diag.
    + rewrite decide_True by (by right). done.
    + apply elem_of_list_singleton in Hq0 as ->. rewrite decide_True by left. done.
    + rewrite decide_False; [done|]. intros [->|?]%elem_of_cons; [apply Hq0; by left|done].
Qed.
Lemma has_prefix_below p k : has_prefix (p ++ [slash]) k = true ↔ below p k.
Proof. unfold has_prefix. rewrite bool_decide_eq_true. apply below_spec. Qed.
(** All paths but [p] agree. *)
Definition agrees_but (p : str) (r : roles) (s : tstate) : Prop := ∀ q, q ≠ p → agree_at (direct r q) (member r q) s q.
Lemma moved_agrees A p w e ord s evn s' evn' r : willing A → tw_p w = p → tinv T s → agrees_but p r s → foldl (dir_moved1 T A w e) (s, evn) ord = (s', evn') →
  agrees_but p (role_gone r (λ q, below p q ∧ q ∈ ord)) s'.
Proof.
  intros HA Hwp. revert s evn r. induction ord as [|k ord IH]; intros s evn r Hi Ha H; cbn [foldl] in H.
  - apply pair_equal_spec in H as [<- _]. intros q Hq. cbn. rewrite !decide_False; [by apply Ha| |]; intros [_ Hin]; by apply elem_of_nil in Hin.
  - destruct (dir_moved1 T A w e (s, evn) k) as [s1 evn1] eqn:E. pose proof (moved1_inv _ _ _ _ _ _ _ _ _ Hi E) as H1.
    assert (agrees_but p (role_gone r (λ q, below p q ∧ q = k)) s1) as Ha1.
    { unfold dir_moved1 in E. rewrite Hwp in E. destruct (has_prefix (p ++ [slash]) k) eqn:Hpre.
      - apply pair_equal_spec in E as [<- _]. destruct (singleunwatch T s A k MBoth) as [s2 r2] eqn:E2. intros q Hq. cbn.
        destruct (decide (q = k)) as [->|Hne].
        + rewrite !decide_True by (split; [by apply has_prefix_below|done]). destruct (agree_del s A k MBoth s2 r2 _ _ HA Hi (Ha k Hq) E2) as [_ K]. done.
        + rewrite !decide_False by (by intros [_ ?]). eapply agree_same; [|by apply Ha]. eapply singleunwatch_same; [done|exact E2|done].
      - apply pair_equal_spec in E as [<- _]. intros q Hq. cbn. rewrite !decide_False; [by apply Ha|..]; intros [Hb ->]; apply has_prefix_below in Hb; congruence. }
    pose proof (IH s1 evn1 _ H1 Ha1 H) as K. intros q Hq. specialize (K q Hq). cbn in *.
    destruct (decide (below p q ∧ q ∈ ord)) as [[Hb Hin]|Hn].
    + rewrite !decide_True by (split; [done|by right]). done.
    + destruct (decide (below p q ∧ q = k)) as [[Hb ->]|Hn2].
      * rewrite !decide_True by (split; [done|by left]). done.
      * rewrite !decide_False; [done|..]; (intros [Hb [?|?]%elem_of_cons]; [by apply Hn2|by apply Hn]).
Qed.
Lemma tw_at_del s i w : ts_heap s !! i = Some w → tw_at (t_Del T s i) (tw_p w) = None.
Proof. intros Hw. destruct (del_gone T s i w Hw) as (G&_). unfold tw_at. by rewrite G. Qed.
Lemma del_again_same s i w q : ts_heap s !! i = Some w → ts_path s !! tw_p w = None → (t_fds T = true → ts_id s !! tw_fd w = None) → tinv T s →
  same_at T s (t_Del T s i) q.
Proof.
  intros Hw Hp Hd Hi.
  assert (ts_path (t_Del T s i) !! q = ts_path s !! q) as Hq.
  { unfold t_Del. rewrite Hw. destruct (t_fds T); cbn; (destruct (decide (tw_p w = q)) as [<-|]; [by rewrite lookup_delete, Hp|by rewrite lookup_delete_ne]). }
  assert (tw_at (t_Del T s i) q = tw_at s q) as K.
  { unfold tw_at. rewrite Hq. destruct (del_gone T s i w Hw) as (_&_&->). done. }
  split; [done|done|]. unfold reg_at. rewrite K. destruct (tw_at s q) as [x|] eqn:Hx; [|done]. cbn [mbind option_bind].
  apply tw_at_Some in Hx as (j&Hj&Hx). destruct (ti_path _ _ Hi q j Hj) as (y&Hy&_&Hf). rewrite Hx in Hy. injection Hy as <-.
  unfold t_Del. rewrite Hw. unfold ident_of. destruct (t_fds T) eqn:HT; cbn; [|done]. apply lookup_delete_ne. intros [= Heq].
  destruct (Hf eq_refl) as [Hf1 _]. rewrite <-Heq in Hf1. by rewrite Hd in Hf1.
Qed.
Lemma gone_agrees s st A ord p w ge s' evn r : willing A → tinv T s → agrees r s → ord ≡ₚ (map_to_list (ts_path s)).*1 → tw_at s p = Some w →
  ge .& (t_rename T .| t_remove T) ≠ 0 → noticed T w ge → trg_process T s st A ord (ident_of T w) ge = (s', evn) →
  agrees (role_gone r (λ q, q = p ∨ (ty p = true ∧ ge .& t_rename T ≠ 0 ∧ below p q))) s'.
Proof.
  intros HA Hi Ha Hord Hat Hge Hnot H. apply tw_at_Some in Hat as Hat'. destruct Hat' as (i&Hp&Hw).
  destruct (ti_path _ _ Hi p i Hp) as (x&Hx&Hxp&_). rewrite Hw in Hx. injection Hx as <-.
  assert (tw_dir w = ty p) as Hty by (pose proof (Ha p) as K; unfold agree_at in K; rewrite Hat in K; by destruct K as (_&_&_&?&_)).
  unfold trg_process in H. set (s0 := if t_fds T then s else set_reg s (delete (ident_of T w) (ts_reg s))) in *.
  assert (tinv T s0) as Hi0 by (unfold s0; destruct (t_fds T); [done|by apply tinv_reg_delete]).
  assert (agrees_but p r s0) as Ha0.
  { intros q Hq. eapply agree_same; [|exact (Ha q)]. by eapply taken_same. }
  assert (ts_path s0 = ts_path s ∧ ts_heap s0 = ts_heap s) as [Ep Eh] by (unfold s0; by destruct (t_fds T)).
  clearbody s0. rewrite (process_subject s0 p w i Hi0) in H by (by rewrite ?Ep, ?Eh). rewrite Eh, Hw in H. cbv zeta in H.
  assert (nonzero (ge .& native_gone T) = true) as Hg by (by apply nz_iff). apply negb_true_iff in Hg as Hg0. rewrite Hg0 in H. cbn [negb] in H.
  assert ((decode (t_nat2not T) ge (tw_e w) =? 0) && (negb (tw_dir w) || (ge .& t_write T =? 0)) = false) as Hn.
  { destruct Hnot as [Hn|[Hn1 Hn2]]; [apply N.eqb_neq in Hn; by rewrite Hn|]. apply N.eqb_neq in Hn2. rewrite Hn1, Hn2. apply andb_false_r. }
  rewrite Hn in H. destruct (tw_dir w) eqn:Hdir.
  - destruct (trg_dir T s0 A ord i w _ ge) as [s2 evn2] eqn:E. apply pair_equal_spec in H as [<- _].
    unfold trg_dir in E. rewrite Hg in E. cbn [negb] in E.
    destruct (if nonzero (ge .& t_rename T) then _ else _) as [s3 evn3] eqn:E3. apply pair_equal_spec in E as [<- _].
    assert (tinv T s3 ∧ same_at T s0 s3 (tw_p w)) as [H3 H4].
    { destruct (nonzero (ge .& t_rename T)); [by eapply moved_inv|]. apply pair_equal_spec in E3 as [<- _]. split; [done|apply same_refl]. }
    assert (agrees_but p (role_gone r (λ q, ge .& t_rename T ≠ 0 ∧ below p q)) s3) as Ha3.
    { destruct (nonzero (ge .& t_rename T)) eqn:Hren.
      - intros q Hq. pose proof (moved_agrees A p w _ ord s0 _ s3 evn3 r HA Hxp Hi0 Ha0 E3 q Hq) as K. cbn in *.
        destruct (decide (ge .& t_rename T ≠ 0 ∧ below p q)) as [[Hr Hb]|Hnb].
        + destruct (decide (below p q ∧ q ∈ ord)) as [_|Hno]; [done|].
          unfold agree_at in *. destruct (tw_at s3 q) as [y|] eqn:Hy; [|done].
          exfalso. apply Hno. split; [done|]. rewrite Hord. apply elem_of_list_fmap.
          (* q is in the table of s3, so of s *)
          assert (is_Some (ts_path s !! q)) as [j Hj].
          { rewrite <-Ep. clear - E3 Hy Hi0. revert E3.
            generalize [TE (tw_p w) (decode (t_nat2not T) ge (tw_e w) .&^ Write (t_plat T) .&^ t_write T) true]. generalize (decode (t_nat2not T) ge (tw_e w)).
            intros e0 l. revert s0 l Hi0. induction ord as [|k ord IH]; intros s0 l Hi0 E3; cbn [foldl] in E3.
            - apply pair_equal_spec in E3 as [<- _]. apply tw_at_Some in Hy as (j&?&?). eauto.
            - destruct (dir_moved1 T A w e0 (s0, l) k) as [s1 l1] eqn:E. pose proof (moved1_inv _ _ _ _ _ _ _ _ _ Hi0 E) as H1.
              pose proof (IH s1 l1 H1 E3) as K. unfold dir_moved1 in E. destruct (has_prefix _ _); [|by apply pair_equal_spec in E as [<- _]].
              apply pair_equal_spec in E as [<- _]. destruct (singleunwatch T s0 A k MBoth) as [s2 r2] eqn:E2. cbn in K.
              destruct (decide (k = q)) as [->|Hne].
              + destruct (ts_path s0 !! q) eqn:Hq; [by eauto|]. unfold singleunwatch in E2. rewrite Hq in E2. apply pair_equal_spec in E2 as [<- _]. by rewrite Hq in K.
              + rewrite <-(sa_path _ _ _ _ (singleunwatch_same T _ _ _ _ _ _ _ Hi0 E2 Hne)). done. }
          exists (q, j). split; [done|]. by apply elem_of_map_to_list.
        + rewrite !decide_False in K; [done|..]; (intros [Hb _]; apply Hnb; split; [by apply nz_iff|done]).
      - apply pair_equal_spec in E3 as [<- _]. intros q Hq. cbn. rewrite !decide_False; [by apply Ha0|..]; intros [Hr _]; apply nz_iff in Hr; congruence. }
    pose proof (sa_path _ _ _ _ H4) as Hp3. rewrite Hxp, Ep, Hp in Hp3.
    pose proof (sa_tw _ _ _ _ H4) as Hw3. unfold tw_at in Hw3. rewrite Hxp, Ep, Hp, Hp3 in Hw3. cbn in Hw3. rewrite Eh, Hw in Hw3.
    destruct (del_gone T s3 i w Hw3) as (G1&G2&G3).
    assert (tinv T (t_Del T s3 i)) as H5 by (by eapply del_inv).
    assert (ts_heap (t_Del T s3 i) !! i = Some w) as Hw5 by (by rewrite G3).
    intros q. cbn. eapply agree_same; [by eapply del_again_same|].
    destruct (decide (q = p)) as [->|Hne].
    + rewrite !decide_True by (by left). unfold agree_at. pose proof (tw_at_del s3 i w Hw3) as G. rewrite Hxp in G. by rewrite G.
    + eapply agree_same; [eapply (same_del T s3 p i w); [done|done|done|done]|]. specialize (Ha3 q Hne). cbn in Ha3.
      destruct (decide (ge .& t_rename T ≠ 0 ∧ below p q)) as [Hy|Hy].
      * rewrite !decide_True by (right; by rewrite <-Hty). done.
      * rewrite !decide_False; [done|..]; intros [?|[_ ?]]; done.
  - apply pair_equal_spec in H as [<- _]. intros q. cbn.
    assert (ts_heap s0 !! i = Some w) as Hw0 by (by rewrite Eh). destruct (decide (q = p)) as [->|Hne].
    + rewrite !decide_True by (by left). unfold agree_at. pose proof (tw_at_del s0 i w Hw0) as G. rewrite Hxp in G. by rewrite G.
    + rewrite !decide_False by (intros [?|[? _]]; congruence). eapply agree_same; [|by apply Ha0]. eapply (same_del T s0 p i w); [done|by rewrite Ep|done|done].
Qed.
Lemma event_agrees s A ord p w ls ge s' evn r : willing A → tinv T s → agrees r s → tw_at s p = Some w →
  ge .& (t_rename T .| t_remove T) = 0 → (strict = true → ty p = true → ge .& t_write T ≠ 0 → direct r p ≠ 0) → listing ty A p ls →
  trg_process T s (Some (ty p)) A ord (ident_of T w) ge = (s', evn) →
  agrees (if decide (ty p = true ∧ ge .& t_write T ≠ 0) then role_rescan r p ls else r) s'.
Proof.
  intros HA Hi Ha Hat Hge Hdirect Hls H. apply tw_at_Some in Hat as Hat'. destruct Hat' as (i&Hp&Hw).
  destruct (ti_path _ _ Hi p i Hp) as (x&Hx&Hxp&Hxf). rewrite Hw in Hx. injection Hx as <-.
  pose proof (Ha p) as Kp. unfold agree_at in Kp. rewrite Hat in Kp. destruct Kp as (K1&K2&K3&K4&K5).
  unfold trg_process in H. set (s0 := if t_fds T then s else set_reg s (delete (ident_of T w) (ts_reg s))) in *.
  assert (tinv T s0) as Hi0 by (unfold s0; destruct (t_fds T); [done|by apply tinv_reg_delete]).
  assert (agrees_but p r s0) as Ha0.
  { intros q Hq. eapply agree_same; [|exact (Ha q)]. by eapply taken_same. }
  assert (ts_path s0 = ts_path s ∧ ts_heap s0 = ts_heap s ∧ ts_open s0 = ts_open s) as (Ep&Eh&Eo) by (unfold s0; by destruct (t_fds T)).
  clearbody s0. rewrite (process_subject s0 p w i Hi0) in H by (by rewrite ?Ep, ?Eh). rewrite Eh, Hw in H. cbv zeta in H.
  change (t_rename T .| t_remove T) with (native_gone T) in Hge. apply N.eqb_eq in Hge as Hg0. rewrite Hg0 in H. cbn [negb] in H.
  assert (t_Watch T s0 A i (t_encode T (tw_e w) (ty p)) = (set_reg s0 (<[ident_of T w := t_encode T (tw_e w) (ty p)]> (ts_reg s0)), ROk)) as HW.
  { unfold t_Watch. rewrite Eh, Hw, (wl_watch _ HA). unfold live. destruct (t_fds T); [|done]. cbn.
    rewrite bool_decide_eq_true_2; [done|]. rewrite Eo. by apply Hxf. }
  rewrite HW in H. set (s1 := set_reg s0 (<[ident_of T w := t_encode T (tw_e w) (ty p)]> (ts_reg s0))) in *.
  assert (tinv T s1) as H1.
  { apply tinv_reg_insert; [done|]. rewrite Eo. intros HT. by apply Hxf. }
  assert (agrees r s1) as Ha1.
  { intros q. destruct (decide (q = p)) as [->|Hne].
    - assert (tw_at s1 p = Some w) as Hat1 by (eapply tw_at_eq; cbn; by rewrite ?Ep, ?Eh).
      unfold agree_at, reg_at. rewrite Hat1. cbn [mbind option_bind]. split_and!; try done. apply lookup_insert.
    - eapply agree_same; [|by apply Ha0]. eapply (same_reg T s0 p i w); [done|by rewrite Ep|by rewrite Eh|done|]. intros k Hk. by rewrite lookup_insert_ne. }
  clearbody s1. clear HW.
  destruct (decide (ty p = true ∧ ge .& t_write T ≠ 0)) as [[Ht Hwr]|Hno].
  - assert ((decode (t_nat2not T) ge (tw_e w) =? 0) && (negb (tw_dir w) || (ge .& t_write T =? 0)) = false) as Hn.
    { apply N.eqb_neq in Hwr as Hwr'. rewrite K4, Ht, Hwr'. apply andb_false_r. }
    rewrite Hn in H. rewrite K4, Ht in H. destruct (trg_dir T s1 A ord i w _ ge) as [s2 evn2] eqn:E. apply pair_equal_spec in H as [<- _].
    unfold trg_dir in E. rewrite Hg0 in E. cbn [negb] in E. assert (nonzero (ge .& t_write T) = true) as Hwr' by (by apply nz_iff). rewrite Hwr' in E.
    unfold listing in Hls. rewrite Ht in Hls. destruct Hls as [Hls Hty]. rewrite Hxp, Hls in E.
    eapply (rescan_agrees A p w (direct r p)); [done|done|done|intros Hst; by apply Hdirect|done|exact H1|exact Ha1|exact E].
  - destruct (_ && _) eqn:Hn in H; [by apply pair_equal_spec in H as [<- _]|].
    destruct (tw_dir w) eqn:Hd; [|by apply pair_equal_spec in H as [<- _]].
    destruct (trg_dir T s1 A ord i w _ ge) as [s2 evn2] eqn:E. apply pair_equal_spec in H as [<- _].
    unfold trg_dir in E. rewrite Hg0 in E. cbn [negb] in E.
    destruct (nonzero (ge .& t_write T)) eqn:Hwr; [|by apply pair_equal_spec in E as [<- _]].
    exfalso. apply Hno. split; [done|by apply nz_iff].
Qed.
Lemma unknown_agrees s st A ord k ge s' evn r : tinv T s → agrees r s → t_Watched T s k = None → trg_process T s st A ord k ge = (s', evn) → agrees r s'.
Proof.
  intros Hi Ha Hk H. unfold trg_process in H. assert (t_Watched T (if t_fds T then s else set_reg s (delete k (ts_reg s))) k = None) as Hk' by (destruct (t_fds T) eqn:HT; [done|]; exact Hk).
  rewrite Hk' in H. apply pair_equal_spec in H as [<- _]. destruct (t_fds T) eqn:HT; [done|]. intros q. eapply agree_same; [|exact (Ha q)].
  split; [done|done|]. unfold reg_at. change (tw_at (set_reg s (delete k (ts_reg s))) q) with (tw_at s q). destruct (tw_at s q) as [x|] eqn:Hx; [|done].
  cbn [mbind option_bind]. apply lookup_delete_ne. intros ->. apply tw_at_Some in Hx as (j&Hj&Hx). rewrite (process_subject s q x j Hi Hj Hx) in Hk. done.
Qed.
Lemma willing_label A : willing A → fresh_fd A.
Proof. apply wl_fd. Qed.
Lemma orderly_agrees r s : orderly T ty strict r s → tinv T s ∧ agrees r s.
Proof.
  induction 1 as [|r s A p e ls res s' Ho [Hi Ha] HA He Hls Hs|r s A p ls res s' Ho [Hi Ha] HA Hls Hs|
    r s A A' p e ls ls' res s' Ho [Hi Ha] HA HA' He Hls Hls' Hd Hs|r s st A ord k ge evn s' Ho [Hi Ha] HA Hk Hs|
    r s st A ord p w ge evn s' Ho [Hi Ha] HA Hat Hge Hn Hs|r s A ord p w ls ge evn s' Ho [Hi Ha] HA Hat Hge Hd Hls Hs].
  - split; [apply tinv_init|]. intros p. done.
  - split; [eapply tstep_inv; [done| |exact Hs]; by apply wl_fd|]. inversion Hs as [? ? ? ? ? ? H| | |]; subst. by eapply watch_agrees.
  - split; [eapply tstep_inv; [done| |exact Hs]; by apply wl_fd|]. inversion Hs as [|? ? ? ? ? H| |]; subst. by eapply unwatch_agrees.
  - split; [eapply tstep_inv; [done| |exact Hs]; split; by apply wl_fd|]. inversion Hs as [| |? ? ? ? ? ? ? H|]; subst. cbn [trg_Rewatch] in H.
    destruct (trg_unwatch T s A p (ty p)) as [s1 r1] eqn:E. destruct (unwatch_agrees A p ls s s1 r1 r HA Hls Hi Ha E) as [Ha1 Hr]. rewrite (Hr Hd) in H.
    assert (tinv T s1) as H1 by (by eapply trg_unwatch_inv). apply pair_equal_spec in H as [<- _].
    destruct (trg_watch T s1 A' p e (ty p)) as [s2 r2] eqn:E2. by eapply watch_agrees.
  - split; [eapply tstep_inv; [done| |exact Hs]; by apply wl_fd|]. inversion Hs as [| | |? ? ? ? ? ? ? Hp H]; subst. by eapply unknown_agrees.
  - split; [eapply tstep_inv; [done| |exact Hs]; by apply wl_fd|]. inversion Hs as [| | |? ? ? ? ? ? ? Hp H]; subst. by eapply gone_agrees.
  - split; [eapply tstep_inv; [done| |exact Hs]; by apply wl_fd|]. inversion Hs as [| | |? ? ? ? ? ? ? Hp H]; subst. by eapply event_agrees.
Qed.
End roles.
