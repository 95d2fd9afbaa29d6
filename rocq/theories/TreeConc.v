(** * TreeConc: the goroutines around a tree, and their interleavings.

    The goroutine of [dispatch] takes the events the watcher reports and starts one
    goroutine for each; every caller of Watch and Stop is a goroutine; the
    non-recursive tree has one more that processes directory events.  They meet at the
    read-write lock of the tree and at the two channels [c] and [rec].  What is done
    under the lock are the functions of NonRec.v and Rec.v. *)
From Verif Require Import Base Event Watchpoint Paths Loop Node NonRec SpecNonRec Rec SpecRec.
Local Open Scope N_scope.

(** What a tree does under its lock: a Watch or Stop call, the dispatch of an event
    (the channels in the order of the sends, and whether the event is passed on to
    [rec]), and the processing of an event from [rec]. *)
Record tree_ops := TreeOps {
  t_call : env → st → nop → st * result;
  t_disp : env → tree → event_info → list key * bool;
  t_int : env → st → event_info → st;
}.
(** /repo/tree_nonrecursive.go:35-119,165-185,284-302 *)
Definition nonrec_ops (sepc : ascii) : tree_ops := TreeOps (nstep sepc) nr_dispatch nr_internal.
(** /repo/tree_recursive.go:124-153,156-299,306-347: nothing is passed on. *)
Definition rec_ops (sepc : ascii) (w : bool) : tree_ops :=
  TreeOps (rstep sepc w) (λ E t ei, (rec_dispatch E t ei, false)) (λ _ s _, s).

(** ** Goroutines *)
(** A goroutine that wants to write: it asks for the lock; it has kept other writers
    and new readers out and waits for the readers that are there; it holds the lock;
    it is done under the lock; it has released the lock. *)
Inductive wpc := WWant | WWait | WHold | WLeft (r : result) | WFree (r : result).
(** - a call of Watch or Stop (/repo/tree_nonrecursive.go:165-185,284-302,
      /repo/tree_recursive.go:156-299,306-347; arguments are checked before the lock);
    - the goroutine for one event before RLock (/repo/tree_nonrecursive.go:38-50,
      /repo/tree_recursive.go:127-137);
    - the same with the read lock, with the sends still to be made
      (/repo/tree_nonrecursive.go:51-66, /repo/tree_recursive.go:138-150).  The tree
      cannot change meanwhile, so the list of sends is found when the lock is taken;
    - the same waiting for room in [rec] (/repo/tree_nonrecursive.go:67-74). *)
Inductive thr :=
  | TCall (o : nop) (pc : wpc)
  | TEvt (ei : event_info)
  | TSend (ei : event_info) (ks : list key) (fwd : bool)
  | TFwd (ei : event_info).
(** The goroutine of [internal] (/repo/tree_nonrecursive.go:80-119). *)
Inductive ithr := IRecv | IProc (ei : event_info) (pc : wpc).
Inductive holder := HCall (i : nat) | HInt.

(** [c_lock]: the writer that keeps others out, if any; [c_q] and [c_rec]: the
    contents of the channels; [c_next]: the number of the next goroutine. *)
Record cfg := Cfg {
  c_st : st;
  c_thr : gmap nat thr;
  c_next : nat;
  c_int : ithr;
  c_lock : option holder;
  c_q : list event_info;
  c_rec : list event_info;
}.
(** /repo/tree_nonrecursive.go:19-32, /repo/tree_recursive.go:110-121 *)
Definition cfg0 : cfg := Cfg init_st ∅ 0 IRecv None [] [].

(** No goroutine holds the read lock. *)
Definition no_readers (c : cfg) : Prop := ∀ i ei ks fwd, c_thr c !! i ≠ Some (TSend ei ks fwd).

Definition set_thr (c : cfg) (i : nat) (t : thr) : cfg :=
  Cfg (c_st c) (<[i := t]> (c_thr c)) (c_next c) (c_int c) (c_lock c) (c_q c) (c_rec c).
Definition end_thr (c : cfg) (i : nat) : cfg :=
  Cfg (c_st c) (delete i (c_thr c)) (c_next c) (c_int c) (c_lock c) (c_q c) (c_rec c).
Definition new_thr (c : cfg) (t : thr) : cfg :=
  Cfg (c_st c) (<[c_next c := t]> (c_thr c)) (S (c_next c)) (c_int c) (c_lock c) (c_q c) (c_rec c).
Definition set_int (c : cfg) (t : ithr) : cfg :=
  Cfg (c_st c) (c_thr c) (c_next c) t (c_lock c) (c_q c) (c_rec c).
Definition set_lock (c : cfg) (h : option holder) : cfg :=
  Cfg (c_st c) (c_thr c) (c_next c) (c_int c) h (c_q c) (c_rec c).
Definition set_st (c : cfg) (s : st) : cfg :=
  Cfg s (c_thr c) (c_next c) (c_int c) (c_lock c) (c_q c) (c_rec c).
Definition set_q (c : cfg) (q : list event_info) : cfg :=
  Cfg (c_st c) (c_thr c) (c_next c) (c_int c) (c_lock c) q (c_rec c).
Definition set_rec (c : cfg) (q : list event_info) : cfg :=
  Cfg (c_st c) (c_thr c) (c_next c) (c_int c) (c_lock c) (c_q c) q.

(** /repo/tree.go:7: the capacity of [c] and of [rec]. *)
Definition buffer : nat := 128.

(** What happens in a step: a call starts; the watcher reports an event; the
    dispatcher takes one; a call has its effect; a call returns; a goroutine offers an
    event to a channel, which takes it or not; an event from [rec] is processed;
    anything else. *)
Inductive lab :=
  | LCall (i : nat) (o : nop)
  | LReport (ei : event_info)
  | LTake (i : nat) (ei : event_info)
  | LCrit (i : nat) (o : nop) (r : result)
  | LRet (i : nat) (o : nop) (r : result)
  | LOffer (i : nat) (n : positive) (ei : event_info) (sent : bool)
  | LInt (ei : event_info)
  | LTau.

Section steps.
Context (T : tree_ops) (env_good : env → Prop) (call_ok : nop → Prop) (ev_ok : event_info → Prop).

(** One step of one goroutine.  sync.RWMutex: Lock first keeps out other writers and
    new readers, then waits for the readers that have the lock.  After a panic there are
    no more steps.  Whether a user channel takes an event is left open
    (/repo/watchpoint.go:88-92); an event for [rec] is dropped if there is no room. *)
Inductive step : cfg → lab → cfg → Prop :=
  (* the environment *)
  | s_call c o : call_ok o → step c (LCall (c_next c) o) (new_thr c (TCall o WWant))
  | s_report c ei :
      ev_ok ei → (length (c_q c) < buffer)%nat → step c (LReport ei) (set_q c (c_q c ++ [ei]))
  (* the dispatcher *)
  | s_take c ei q : c_q c = ei :: q → step c (LTake (c_next c) ei) (new_thr (set_q c q) (TEvt ei))
  (* calls of Watch and Stop *)
  | s_want c i o :
      c_thr c !! i = Some (TCall o WWant) → c_lock c = None →
      step c LTau (set_lock (set_thr c i (TCall o WWait)) (Some (HCall i)))
  | s_lock c i o :
      c_thr c !! i = Some (TCall o WWait) → no_readers c → step c LTau (set_thr c i (TCall o WHold))
  | s_crit c i o E s' r :
      c_thr c !! i = Some (TCall o WHold) → env_good E → t_call T E (c_st c) o = (s', r) →
      st_panic s' = false →
      step c (LCrit i o r) (set_st (set_thr c i (TCall o (WLeft r))) s')
  | s_unlock c i o r :
      c_thr c !! i = Some (TCall o (WLeft r)) →
      step c LTau (set_lock (set_thr c i (TCall o (WFree r))) None)
  | s_ret c i o r :
      c_thr c !! i = Some (TCall o (WFree r)) → step c (LRet i o r) (end_thr c i)
  (* the goroutine of an event *)
  | s_rlock c i ei E ks fwd :
      c_thr c !! i = Some (TEvt ei) → c_lock c = None → env_good E →
      t_disp T E (st_tree (c_st c)) ei = (ks, fwd) →
      step c LTau (set_thr c i (TSend ei ks fwd))
  | s_offer c i ei n ks fwd sent :
      c_thr c !! i = Some (TSend ei (KUser n :: ks) fwd) →
      step c (LOffer i n ei sent) (set_thr c i (TSend ei ks fwd))
  | s_offer_rec c i ei ks fwd :
      c_thr c !! i = Some (TSend ei (KRec :: ks) fwd) →
      step c LTau (set_thr (if decide (length (c_rec c) < buffer)%nat then set_rec c (c_rec c ++ [ei]) else c)
                     i (TSend ei ks fwd))
  | s_offer_nil c i ei ks fwd :
      c_thr c !! i = Some (TSend ei (KNil :: ks) fwd) → step c LTau (set_thr c i (TSend ei ks fwd))
  | s_runlock c i ei fwd :
      c_thr c !! i = Some (TSend ei [] fwd) →
      step c LTau (if fwd then set_thr c i (TFwd ei) else end_thr c i)
  | s_fwd c i ei :
      c_thr c !! i = Some (TFwd ei) → (length (c_rec c) < buffer)%nat →
      step c LTau (end_thr (set_rec c (c_rec c ++ [ei])) i)
  (* the goroutine of [internal] *)
  | s_recv c ei q :
      c_int c = IRecv → c_rec c = ei :: q → step c LTau (set_int (set_rec c q) (IProc ei WWant))
  | s_iwant c ei :
      c_int c = IProc ei WWant → c_lock c = None →
      step c LTau (set_lock (set_int c (IProc ei WWait)) (Some HInt))
  | s_ilock c ei :
      c_int c = IProc ei WWait → no_readers c → step c LTau (set_int c (IProc ei WHold))
  | s_icrit c ei E s' :
      c_int c = IProc ei WHold → env_good E → t_int T E (c_st c) ei = s' → st_panic s' = false →
      step c (LInt ei) (set_st (set_int c (IProc ei (WLeft ROk))) s')
  | s_iunlock c ei r :
      c_int c = IProc ei (WLeft r) → step c LTau (set_lock (set_int c (IProc ei (WFree r))) None)
  | s_idone c ei r :
      c_int c = IProc ei (WFree r) → step c LTau (set_int c IRecv).

(** [run ls c]: the goroutines may do [ls], in this order, and get to [c]. *)
Inductive run : list lab → cfg → Prop :=
  | run_init : run [] cfg0
  | run_step ls c l c' : run ls c → step c l c' → run (ls ++ [l]) c'.
End steps.
