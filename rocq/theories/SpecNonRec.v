(** * SpecNonRec: histories of the non-recursive tree and what they register *)
From Verif Require Import Base Event Watchpoint Paths PathsFacts Loop Node NonRec SpecTree.
Local Open Scope N_scope.

(** ** Histories *)
(** The operations on a tree: a Watch call (after argument cleaning) on the path
    with the given components, a Stop call, and the processing of a directory
    event reported by the OS. *)
Inductive nop :=
  | NWatch (p : path) (isrec : bool) (n : positive) (e : N)
  | NStop (n : positive)
  | NEvent (ev : N) (p : path).

Section hist.
Context (P : platform) (sepc : ascii).

(** The environments considered: this platform, unix paths, and otherwise anything
    the OS and the Go runtime may do; every operation may run in a different one. *)
Record nenv (E : env) : Prop := {
  ne_plat : e_plat E = P;
  ne_sep : e_sep E = sepc;
  ne_vol : ∀ s, e_vol E s = [];
  ne_ok : env_ok E;
}.
(** A clean absolute unix path: non-empty components, or the root directory. *)
Definition upath (p : path) : Prop :=
  p ≠ [] ∧ comps_ok sepc p ∧ [] ∉ removelast p.
(** As [upath], and not the root directory. *)
Definition gpath (p : path) : Prop := p ≠ [] ∧ comps_ok sepc p ∧ [] ∉ p.
Definition nop_ok (o : nop) : Prop :=
  match o with
  | NWatch p _ _ e => upath p ∧ u32 e ∧ user_ev P e
  | NStop _ => True
  | NEvent ev p => gpath p
  end.

Definition nstep (E : env) (s : st) (o : nop) : st * result :=
  match o with
  | NWatch p isrec n e => nr_Watch E s (render sepc p) isrec (KUser n) e
  | NStop n => (nr_Stop E s (KUser n), ROk)
  | NEvent ev p => (nr_internal E s (EI ev (render sepc p) (Some true) fTypeDirectory), ROk)
  end.

(** ** Registrations *)
(** What each channel has asked for on each path; a recursive registration
    carries the [recursive] bit. *)
Notation regs := (path → positive → N).
Definition rec_bit (isrec : bool) : N := if isrec then recursive P else 0.
(** How an operation with the given outcome changes the registrations: a
    successful Watch adds exactly what was asked, a failed plain Watch adds at most
    that, a failed recursive one nothing, Stop withdraws everything of one channel, a
    removed directory takes the registrations at and below it along. *)
Definition reg_after (o : nop) (r : result) (g g' : regs) : Prop :=
  match o with
  | NWatch p isrec n e =>
      (∀ q m, (q, m) ≠ (p, n) → g' q m = g q m) ∧
      match r, isrec with
      | ROk, _ => g' p n = g p n .| e .| rec_bit isrec
      | _, false => incl_ev (g p n) (g' p n) ∧ incl_ev (g' p n) (g p n .| e)
      | _, true => g' p n = g p n
      end
  | NStop n => ∀ q m, g' q m = if decide (m = n) then 0 else g q m
  | NEvent ev p =>
      ∀ q m, g' q m = if decide (ev = Remove P ∧ p `prefix_of` q) then 0 else g q m
  end.


(** A trace: the operations performed, in order, with what they returned. *)
Notation trace := (list (nop * result)).
(** [nexec tr s]: starting from the empty tree, the operations of [tr] may return
    what [tr] says and lead to state [s]. *)
Inductive nexec : trace → st → Prop :=
  | nexec_init : nexec [] init_st
  | nexec_step tr s E o s' r :
      nexec tr s → nenv E → nop_ok o → nstep E s o = (s', r) → nexec (tr ++ [(o, r)]) s'.
(** [nregs tr g]: [g] may be the registrations after the trace. *)
Inductive nregs : trace → regs → Prop :=
  | nregs_init g : (∀ p n, g p n = 0) → nregs [] g
  | nregs_step tr g o r g' : nregs tr g → reg_after o r g g' → nregs (tr ++ [(o, r)]) g'.
(** No plain Watch failed. *)
Definition no_failure (tr : trace) : Prop :=
  Forall (λ '(o, r), match o with NWatch _ false _ _ => r = ROk | _ => True end) tr.

(** What the channels have asked for, when no plain Watch failed. *)
Definition ask (g : regs) (x : nop * result) (p : path) (n : positive) : N :=
  match x with
  | (NWatch q isrec m e, ROk) => if decide (q = p ∧ m = n) then g p n .| e .| rec_bit isrec else g p n
  | (NWatch _ _ _ _, _) => g p n
  | (NStop m, _) => if decide (m = n) then 0 else g p n
  | (NEvent ev q, _) => if decide (ev = Remove P ∧ q `prefix_of` p) then 0 else g p n
  end.
Definition asked (tr : trace) : regs := foldl ask (λ _ _, 0) tr.

(** ** Delivery *)
(** How often channel [n] must be offered an event [ev] on [d]/[c], the entry [c]
    of directory [d]: for its registration on the entry, for its registration on
    the directory, and for each recursive registration on a directory above. *)
Definition gets (g : regs) (n : positive) (ev : N) (q : path) : nat :=
  if decide (ev .& g q n = ev) then 1 else 0.
Definition deliveries (g : regs) (n : positive) (ev : N) (d : path) (c : str) : nat :=
  foldr Nat.add 0%nat ((λ k, gets g n (ev .| recursive P) (take k d)) <$> seq 0 (length d))
  + gets g n ev d + gets g n ev (d ++ [c]).
(** How often the tree offers the event to the channel. *)
Definition offered (E : env) (s : st) (ei : event_info) (k : key) : nat :=
  length (filter (k =.) (nr_dispatch E (st_tree s) ei).1).
End hist.
