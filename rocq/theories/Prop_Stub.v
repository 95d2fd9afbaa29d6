(** * Property theorem C73: without a working watcher, Watch says so *)
From Verif Require Import Base Event Watchpoint WatchpointFacts Paths PathsFacts Loop Node NodeFacts NonRec NonRecWp NonRecRun SpecOS NonRecFacts NonRecReg NonRecStep NonRecDisp
  Rec Clean SpecClean CleanFacts SpecTree SpecNonRec SpecRec Prop_Basics Prop_NonRec Prop_Clean Api SpecApi ApiFacts Prop_Api SpecStub.
Local Open Scope N_scope.

Section stub.
Context (P : platform) (HP : platform_ok P) (HW : windows P = false).
(** Nobody is registered anywhere. *)
Definition idle (s : st) : Prop := ∀ q, wp_at (st_tree s) q !! KRec = None ∧ ∀ n, wget (wp_at (st_tree s) q) (KUser n) = 0.
Lemma idle_total s q : idle s → total P (wp_at (st_tree s) q) = 0.
Proof.
  intros Hi. unfold total. apply has_ext. intros i. rewrite has_ldiff, has_others_get. split.
  - intros [([| |n]&Hk&Hh) _]; [done|..]; destruct (Hi q) as [H1 H2].
    + unfold wget in Hh. by rewrite H1 in Hh.
    + by rewrite H2 in Hh.
  - intros H. by destruct (has_0 i).
Qed.
Lemma idle_watch E s p n e s' r : stub_env P E → nop_ok P slash (NWatch p false n e) → tinv P slash (st_tree s) → idle s →
  nstep slash E s (NWatch p false n e) = (s', r) → idle s' ∧ (e ≠ 0 → r = RErr).
Proof.
  intros [HE Href] (Hu&H32&Hue) Ht Hi Hs. cbn [nstep] in Hs. unfold nr_Watch in Hs.
  destruct (nr_add_spec P slash E (st_tree s) p HE Ht Hu) as (t1&Hadd&Ht1&Hp1&Hw1&_). rewrite Hadd in Hs.
  unfold nr_watch in Hs. rewrite (node_wadd_spec P slash) in Hs by (done || apply HE). cbn [st_tree with_tree] in Hs.
  assert (idle (with_tree s t1)) as Hi1 by (intros q; cbn [st_tree with_tree]; rewrite Hw1; apply Hi).
  pose proof (idle_total _ p Hi1) as Htot. cbn [st_tree with_tree] in Htot.
  pose proof (tinv_wp_at _ _ _ p Ht1) as Hwp.
  pose proof (wadd_diff P (wp_at t1 p) (KUser n) e ltac:(done) (wo_agg _ _ Hwp)) as Hd. rewrite total_wadd, Htot in Hd by done.
  assert (e .&^ internal P = e) as He by (clear - Hue; unfold user_ev in Hue; bits).
  rewrite He, N.lor_0_l in Hd. destruct (Hi1 p) as [Hr1 Hu1]. cbn [st_tree with_tree] in Hr1, Hu1.
  destruct (wadd P (wp_at t1 p) (KUser n) e) as [wp d] eqn:Ea. cbn [fst snd] in *.
  assert (∀ m, wget wp (KUser m) = if bool_decide (m = n) then e else 0) as Hwu.
  { intros m. pose proof (wadd_wget P (wp_at t1 p) (KUser n) e (KUser m) ltac:(done) ltac:(done)) as H. rewrite Ea in H. cbn [fst] in H. rewrite H, Hu1.
    destruct (decide (m = n)) as [->|Hmn]; [by rewrite !bool_decide_true|]. rewrite !bool_decide_false by congruence. apply Hu1. }
  assert (wp !! KRec = None) as Hwr.
  { pose proof (wadd_get P (wp_at t1 p) (KUser n) e KRec ltac:(done) ltac:(done)) as H. rewrite Ea in H. cbn [fst] in H. by rewrite H. }
  destruct (decide (e = 0)) as [->|Hne].
  - assert (d = none) as -> by (by destruct Hd as [[_ ?]|[? _]]). cbn in Hs. injection Hs as <- <-. split; [|done].
    intros q. cbn [st_tree with_tree]. rewrite wp_at_set_wp. destruct (decide _) as [[-> _]|_]; [|rewrite Hw1; apply Hi].
    split; [done|]. intros m. rewrite Hwu. by case_bool_decide.
  - assert (d = (0, e)) as -> by (destruct Hd as [[H _]|[_ ?]]; [by destruct Hne|done]).
    assert ((e =? 0) = false) as He0 by (by apply N.eqb_neq).
    unfold is_none in Hs. cbn [fst snd] in Hs. rewrite He0 in Hs. cbn [andb] in Hs. unfold wcallf in Hs. cbn [N.eqb] in Hs. rewrite Href in Hs.
    cbn [st_tree with_tree] in Hs. injection Hs as <- <-. split; [|done].
    intros q. cbn [st_tree with_tree]. rewrite (ne_plat _ _ _ HE). rewrite !wp_at_set_wp.
    destruct (decide (p = p ∧ is_Some (t1 !! p))) as [_|Hn]; [|by destruct Hn].
    destruct (decide (q = p ∧ _)) as [[-> _]|Hq].
    + split.
      * rewrite wdel_get by done. rewrite bool_decide_false by done. done.
      * intros m. rewrite wdel_wget by done. unfold diff_event. cbn [fst snd]. destruct (decide (m = n)) as [->|Hmn].
        -- rewrite bool_decide_true by done. rewrite Hwu, bool_decide_true by done. clear. bits.
        -- rewrite bool_decide_false by congruence. by rewrite Hwu, bool_decide_false.
    + destruct (decide (q = p ∧ is_Some (t1 !! p))) as [[-> _]|_]; [|rewrite Hw1; apply Hi].
      destruct Hq. split; [done|]. by rewrite set_wp_is_Some.
Qed.
Lemma idle_stop E s n : nenv P slash E → tinv P slash (st_tree s) → idle s → idle (nr_Stop E s (KUser n)).
Proof.
  intros HE Ht Hi q. destruct (nr_Stop_spec P HP slash E n s HE Ht) as (_&_&_&_&Hw). rewrite Hw. unfold stopf, wdelmin.
  destruct (Hi q) as [Hr Hu]. rewrite Hr. split.
  - rewrite wdel_get by done. by rewrite bool_decide_false.
  - intros m. rewrite wdel_wget by done. rewrite !Hu. by case_bool_decide.
Qed.
Lemma stub_nr tr s (ok : acall → Prop) : (∀ o, ok o → acall_ok P o) → stub_exec P ok tr s → aexec_nr P tr s.
Proof.
  intros Hok. induction 1 as [|tr s E o s' r _ IH [HE _] Ho Hs _]; [constructor|].
  eapply aexec_step; try done. intros Hv. apply Hok, Ho, Hv.
Qed.
Lemma stub_tinv tr s (ok : acall → Prop) : (∀ o, ok o → acall_ok P o) → stub_exec P ok tr s → tinv P slash (st_tree s).
Proof.
  intros Hok Hx. destruct (aexec_nr_nexec P tr s) as (trs&_&Hn); [by eapply stub_nr|]. by apply (nexec_inv P HP slash) in Hn as [? _].
Qed.
Lemma idle_init : idle init_st.
Proof.
  intros q. cbn [st_tree init_st]. unfold wp_at.
  destruct (decide (q = [])) as [->|Hq]; [by rewrite lookup_singleton|by rewrite lookup_singleton_ne].
Qed.
Lemma idle_step E s o s' r : stub_env P E → (¬ vain o → plain_call P o) → tinv P slash (st_tree s) → idle s →
  astep nr_api E s o = (s', r) →
  idle s' ∧ ∀ fs cwd p n events, o = AWatch fs cwd p (Some n) events → (∃ e, e ∈ events ∧ e ≠ 0) → r = ORet RErr ∨ ∃ x, r = OBadPath x.
Proof.
  intros HE Hok Ht Hi Hs.
  destruct (nr_trans P E s o s' r (se_env _ _ HE) (λ H, proj1 (Hok H)) Hs) as [[Htr ->]|(o'&r'&Htr&Ho&Hs')].
  - split; [done|]. intros fs cwd p n events -> (e&He&_). inversion Htr as [? ? Hv|? ? ? ? ? x| | |]; subst; [by destruct events; [apply elem_of_nil in He|]|eauto].
  - inversion Htr as [| |fs cwd p n events r0 isrec ph Hne Hd|n|ev p]; subst.
    + destruct Hok as [_ Hpl]; [intros Hv; by destruct events|]. assert (isrec = false) as ->.
      { destruct isrec; [|done]. destruct Hd as (x&_&->&_). by destruct (Hpl x). }
      destruct (idle_watch E s (nodeof ph) n (joinevents P events) s' r' HE Ho Ht Hi Hs') as [Hi' Hr]. split; [done|].
      intros fs' cwd' p' n' events' [= <- <- <- <- <-] He. left. f_equal. apply Hr.
      destruct He as (e&He&[i Hi2]%nonzero_bit). apply nonzero_bit. exists i. apply C01_union; [done|]. by exists e.
    + injection Hs' as <-. split; [by apply idle_stop; [apply HE|..]|done].
    + by destruct Hok as [_ ?]; [intros []|].
Qed.
Lemma stub_idle tr s : stub_exec P (plain_call P) tr s → idle s.
Proof.
  induction 1 as [|tr s E o s' r Hx IH HE Ho Hs _]; [apply idle_init|].
  eapply idle_step; try done. eapply stub_tinv; [|done]. by intros ? [? _].
Qed.

(** Without a working watcher, every Watch that names an event returns an error, as long
    as nobody asks for a subtree. *)
Theorem C73_reported_partial tr s fs cwd p n events r :
  stub_exec P (plain_call P) tr s → (AWatch fs cwd p (Some n) events, r) ∈ tr → (∃ e, e ∈ events ∧ e ≠ 0) →
  r = ORet RErr ∨ ∃ x, r = OBadPath x.
Proof.
  intros Hx. induction Hx as [|tr s E o s' r' Hx IH HE Ho Hs _]; intros Hin He; [by apply elem_of_nil in Hin|].
  apply elem_of_app in Hin as [Hin|Hin%elem_of_list_singleton]; [by apply IH|]. injection Hin as <- <-.
  destruct (idle_step E s _ s' r HE Ho) as [_ H]; try done; [|by eapply stub_idle|by eapply H].
  eapply stub_tinv; [|done]. by intros ? [? _].
Qed.
(** It leaves nothing behind: no event, should there be one, is offered to anybody. *)
Theorem C73_no_trace_partial tr s E ei d c n :
  stub_exec P (plain_call P) tr s → nenv P slash E → Prop_NonRec.reported P slash ei d c → offered E s ei (KUser n) = 0%nat.
Proof.
  intros Hx HE (Hev&Hom&Hd&Hc&Hp). assert (tinv P slash (st_tree s)) as Ht by (eapply stub_tinv; [|done]; by intros ? [? _]).
  destruct (dispatch_spec P HP HW slash E s ei d c HE Ht Hev Hom Hd Hc Hp) as [-> _].
  pose proof (stub_idle _ _ Hx) as Hi. assert (∀ q i, ¬ has (ureg s q n) i) as H0.
  { intros q i. unfold ureg. rewrite (proj2 (Hi q)). apply has_0. }
  apply nonzero_bit in Hev as [i Hev]. apply Nat.le_0_r, Nat.nlt_ge.
  intros [H|[H|(a&_&_&H)]]%deliveries_pos; [exact (H0 _ i (H i Hev))..|]. apply (H0 a i), H, has_lor. by left.
Qed.
End stub.

(** ** Instances *)
Definition refuse (log : wlog) (c : wcall) : bool := false.
Definition ES : env := mkenv stub dirs1 refuse.
Lemma ES_ok : stub_env stub ES.
Proof. split; [apply mkenv_nenv, dirs1_ok|done]. Qed.
Definition calls_stub : list acall := [
  AWatch fs1 (Some (b "/d")) (b "../f") (Some 2%positive) [Write stub; Remove stub];
  AWatch fs1 None (b "/d") (Some 1%positive) [Create stub];
  AStop 2;
  AWatch fs1 None (b "/d/missing") (Some 3%positive) [Write stub]].
Definition outcomes_stub : list outcome := [ORet RErr; ORet RErr; ORet ROk; OBadPath EStat].
Example C73_hyps : stub_exec stub (plain_call stub) (zip calls_stub outcomes_stub) (arun nr_api ES init_st calls_stub).2.
Proof.
  assert (zip calls_stub outcomes_stub = (arun nr_api ES init_st calls_stub).1) as -> by (by vm_compute).
  apply (arun_from nr_api (stub_env stub) (plain_call stub) (λ _, True) ES calls_stub [] init_st); [apply ES_ok| |done|constructor].
  assert (∀ p, take 3 (reverse p) ≠ b "..." → ∀ x, p ≠ x ++ b "...") as Hs.
  { intros p Hp x ->. apply Hp. by rewrite reverse_app. }
  repeat (apply Forall_cons; split; [|]); [..|by apply Forall_nil]; intros _; (split; [|by try apply Hs]).
  all: try apply acall_okb_ok; try apply fs1_ok; try done; by intros w [= <-].
Qed.
(** On a platform without implementation, somebody asks for the subtree of /d.  The
    call returns nil, although nothing is watched: the tree ignores the error.  A plain
    Watch of /d for the same events then returns nil, too. *)
Theorem C73_reported_refuted :
  let '(tr, s) := arun nr_api ES init_st [
    AWatch fs1 None (b "/d/...") (Some 1%positive) [Create stub; Write stub];
    AWatch fs1 None (b "/d") (Some 2%positive) [Write stub]] in
  tr.*2 = [ORet ROk; ORet ROk] ∧ os_watches (st_log s) = ∅.
Proof. by vm_compute. Qed.

Print Assumptions C73_reported_partial.
Print Assumptions C73_no_trace_partial.
Print Assumptions C73_reported_refuted.
