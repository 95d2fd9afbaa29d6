(** * TriggerEx: executions of the kqueue and FEN watcher, computed. *)
From Verif Require Import Base Event Paths Clean Trigger SpecTrigger TriggerFacts TriggerTab TriggerRun TriggerRoles.
Local Open Scope N_scope.

(** A descriptor above those in use *)
Definition next_fd (X : gset nat) : nat := S (foldr Nat.max 0%nat (elements X)).
Lemma next_fd_fresh X : next_fd X ∉ X.
Proof.
  intros H. assert (∀ l, next_fd X ∈ l → (next_fd X ≤ foldr Nat.max 0 l)%nat) as K.
  { induction l as [|x l IH]; [by intros ?%elem_of_nil|]. intros [->|?]%elem_of_cons; cbn; [lia|]. specialize (IH H0). lia. }
  specialize (K (elements X)). rewrite elem_of_elements in K. specialize (K H). unfold next_fd in K. lia.
Qed.
(** The OS refuses nothing, the directories have these entries. *)
Definition kind (ls : str → option (list finfo)) : answers := Ans next_fd (λ _, NewOk) (λ _, SOk) (λ _, SOk) ls.
Lemma kind_willing ls : willing (kind ls).
Proof. by split; [exact next_fd_fresh|..]. Qed.
(** It leaves alone what satisfies [skip]. *)
Definition skipping (skip : str → bool) (ls : str → option (list finfo)) : answers :=
  Ans next_fd (λ p, if skip p then NewSkip else NewOk) (λ _, SOk) (λ _, SOk) ls.

Inductive cmd :=
  | XWatch (st : option bool) (A : answers) (p : str) (e : N)
  | XUnwatch (st : option bool) (A : answers) (p : str)
  | XRewatch (st : option bool) (A A' : answers) (p : str) (e : N)
  | XEvent (st : option bool) (A : answers) (k : ident) (ge : N)
  (* the event is for the file or directory at this path *)
  | XEventAt (st : option bool) (A : answers) (p : str) (ge : N).
Section runner.
Context (T : trig).
Definition keys_of (s : tstate) : list str := (map_to_list (ts_path s)).*1.
Definition run_event (s : tstate) st A k ge : tlabel * tstate :=
  let x := trg_process T s st A (keys_of s) k ge in (TEvent st A (keys_of s) k ge x.2, x.1).
Definition run1 (s : tstate) (c : cmd) : tlabel * tstate :=
  match c with
  | XWatch st A p e => let x := trg_Watch T s st A p e in (TWatch st A p e x.2, x.1)
  | XUnwatch st A p => let x := trg_Unwatch T s st A p in (TUnwatch st A p x.2, x.1)
  | XRewatch st A A' p e => let x := trg_Rewatch T s st A A' p e in (TRewatch st A A' p e x.2, x.1)
  | XEvent st A k ge => run_event s st A k ge
  | XEventAt st A p ge => run_event s st A (match tw_at s p with Some w => ident_of T w | None => inr [] end) ge
  end.
Definition run (cs : list cmd) : list tlabel * tstate :=
  foldl (λ acc c, let x := run1 acc.2 c in (acc.1 ++ [x.1], x.2)) ([], ts_init) cs.
Definition cmd_ok (c : cmd) : Prop :=
  match c with
  | XWatch _ A _ _ | XUnwatch _ A _ | XEvent _ A _ _ | XEventAt _ A _ _ => fresh_fd A
  | XRewatch _ A A' _ _ => fresh_fd A ∧ fresh_fd A'
  end.
Lemma run1_step s c : tstep T s (run1 s c).1 (run1 s c).2 ∧ (cmd_ok c → label_ok (run1 s c).1).
Proof.
  split; [|by destruct c]. destruct c; cbn [run1 fst snd].
  - constructor. by rewrite <-surjective_pairing.
  - constructor. by rewrite <-surjective_pairing.
  - constructor. by rewrite <-surjective_pairing.
  - unfold run_event. cbn [fst snd]. constructor; [done|]. by rewrite <-surjective_pairing.
  - unfold run_event. cbn [fst snd]. constructor; [done|]. by rewrite <-surjective_pairing.
Qed.
Lemma run_texec cs : Forall cmd_ok cs → texec T (run cs).1 (run cs).2.
Proof.
  intros H. unfold run. assert (∀ acc, texec T acc.1 acc.2 → texec T (foldl (λ acc c, let x := run1 acc.2 c in (acc.1 ++ [x.1], x.2)) acc cs).1
    (foldl (λ acc c, let x := run1 acc.2 c in (acc.1 ++ [x.1], x.2)) acc cs).2) as K; [|apply K; constructor].
  induction H as [|c cs Hc _ IH]; intros acc Ha; [done|]. cbn [foldl]. apply IH. cbn [fst snd].
  destruct (run1_step acc.2 c) as [K1 K2]. eapply texec_step; [exact Ha|by apply K2|exact K1].
Qed.
End runner.
(** The events of a history, and the results of its calls *)
Definition sent (l : tlabel) : list tevent := match l with TEvent _ _ _ _ _ evn => evn | _ => [] end.
Definition returned (l : tlabel) : option res := match l with TWatch _ _ _ _ r | TUnwatch _ _ _ r | TRewatch _ _ _ _ _ r => Some r | _ => None end.
