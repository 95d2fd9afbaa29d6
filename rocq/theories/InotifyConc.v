(** * InotifyConc: the goroutines of /repo/watcher_inotify.go.

    Two small transition systems.  [lstep] is lazyinit's double-checked locking run
    by any number of goroutines, together with the shutdown of an instance by its
    loop.  [cstep] is one running instance: the loop, its consumers and a Close call.
    Every step is one atomic action (a load or store of [i.fd], taking or releasing
    the lock, a channel operation, a critical section of the lock). *)
From Verif Require Import Base Event Paths Clean Inotify.
Local Open Scope nat_scope.

(** ** lazyinit (/repo/watcher_inotify.go:113-137) *)
(** Where a goroutine is: before the first load; having seen no descriptor; holding
    the lock; holding it and having seen no descriptor again; having created the
    inotify descriptor and stored it in [i.fd]; returned (true = nil). *)
Inductive lpc := L0 | L1 | L2 | L3 | L4 | LRet (ok : bool).
Record lst := LS {
  l_pc : gmap nat lpc;        (* the goroutines calling watch *)
  l_fd : bool;                (* i.fd != invalidDescriptor *)
  l_lock : option nat;        (* who holds the lock *)
  l_live : nat;               (* loops running *)
  l_cons : nat;               (* i.wg: consumers running *)
  l_inits : nat;              (* instances fully set up so far *)
  l_shuts : nat;              (* instances shut down so far *)
}.
Definition linit : lst := LS ∅ false None 0 0 0 0.
Notation lset s t pc := (<[t := pc]> (l_pc s)).
Inductive lstep : lst → lst → Prop :=
  (* a new call *)
  | ls_call s t : l_pc s !! t = None →
      lstep s (LS (lset s t L0) (l_fd s) (l_lock s) (l_live s) (l_cons s) (l_inits s) (l_shuts s))
  (* :114, first load *)
  | ls_fast s t : l_pc s !! t = Some L0 → l_fd s = true →
      lstep s (LS (lset s t (LRet true)) (l_fd s) (l_lock s) (l_live s) (l_cons s) (l_inits s) (l_shuts s))
  | ls_slow s t : l_pc s !! t = Some L0 → l_fd s = false →
      lstep s (LS (lset s t L1) (l_fd s) (l_lock s) (l_live s) (l_cons s) (l_inits s) (l_shuts s))
  (* :115 *)
  | ls_lock s t : l_pc s !! t = Some L1 → l_lock s = None →
      lstep s (LS (lset s t L2) (l_fd s) (Some t) (l_live s) (l_cons s) (l_inits s) (l_shuts s))
  (* :117, second load *)
  | ls_again s t : l_pc s !! t = Some L2 → l_fd s = true →
      lstep s (LS (lset s t (LRet true)) (l_fd s) None (l_live s) (l_cons s) (l_inits s) (l_shuts s))
  | ls_need s t : l_pc s !! t = Some L2 → l_fd s = false →
      lstep s (LS (lset s t L3) (l_fd s) (l_lock s) (l_live s) (l_cons s) (l_inits s) (l_shuts s))
  (* :118-122 *)
  | ls_initfail s t : l_pc s !! t = Some L3 →
      lstep s (LS (lset s t (LRet false)) (l_fd s) None (l_live s) (l_cons s) (l_inits s) (l_shuts s))
  | ls_init s t : l_pc s !! t = Some L3 →
      lstep s (LS (lset s t L4) true (l_lock s) (l_live s) (l_cons s) (l_inits s) (l_shuts s))
  (* :123-127 *)
  | ls_epollfail s t : l_pc s !! t = Some L4 →
      lstep s (LS (lset s t (LRet false)) false None (l_live s) (l_cons s) (l_inits s) (l_shuts s))
  (* :128-133 *)
  | ls_start s t : l_pc s !! t = Some L4 →
      lstep s (LS (lset s t (LRet true)) (l_fd s) None (S (l_live s)) (2 + l_cons s) (S (l_inits s)) (l_shuts s))
  (* the loop's last critical section (:195-206) *)
  | ls_shut s : 0 < l_live s → l_lock s = None →
      lstep s (LS (l_pc s) false None (l_live s - 1) (l_cons s) (l_inits s) (S (l_shuts s)))
  (* a consumer of a shut down instance ends (:256) *)
  | ls_done s : 2 * l_live s < l_cons s →
      lstep s (LS (l_pc s) (l_fd s) (l_lock s) (l_live s) (l_cons s - 1) (l_inits s) (l_shuts s)).

(** ** One instance *)
(** The loop (/repo/watcher_inotify.go:185-214): waiting in epoll, offering a batch to
    the consumers, returned. *)
Inductive looppc := LPoll | LGive (es : list raw) | LEnd.
(** A consumer ([send], :248-257): waiting for a batch, having received one, sending events. *)
Inductive conspc := CWait | CGot (es : list raw) | CSend (l : list ievent) | CEnd.
(** The caller of Close (:369-392): not called, waiting for the consumers, returned. *)
Inductive closepc := KNone | KWaiting | KReturned.
Record cstt := CS {
  c_fd : bool;                     (* i.fd *)
  c_m : gmap Z watched;            (* i.m *)
  c_q : list (list raw);           (* what further reads will return *)
  c_pipe : nat;                    (* bytes in the pipe *)
  c_loop : looppc;
  c_eclosed : bool;                (* esch closed *)
  c_cons : list conspc;
  c_close : closepc;
  c_out : list ievent;             (* everything sent to i.c so far *)
}.
(** Just after lazyinit. *)
Definition cinit : cstt := CS true ∅ [] 0 LPoll false [CWait; CWait] KNone [].
(** A record about every removed descriptor. *)
Definition ignored (m : gmap Z watched) : list raw :=
  (λ x : Z * watched, Raw x.1 IN_IGNORED 0 []) <$> map_to_list m.

(** Steps of the library's goroutines. *)
Inductive cstep : cstt → cstt → Prop :=
  (* epoll reports the inotify descriptor; read (:192-194) *)
  | cs_read s es q : c_loop s = LPoll → c_fd s = true → c_q s = es :: q →
      cstep s (CS (c_fd s) (c_m s) q (c_pipe s) (LGive es) (c_eclosed s) (c_cons s) (c_close s) (c_out s))
  (* esch <- es, received by consumer k *)
  | cs_give s es k : c_loop s = LGive es → c_cons s !! k = Some CWait →
      cstep s (CS (c_fd s) (c_m s) (c_q s) (c_pipe s) LPoll (c_eclosed s) (<[k := CGot es]> (c_cons s)) (c_close s) (c_out s))
  (* epoll reports the pipe (:195-206) *)
  | cs_shut s : c_loop s = LPoll → c_fd s = true → 0 < c_pipe s →
      cstep s (CS false (c_m s) (c_q s) 0 LEnd true (c_cons s) (c_close s) (c_out s))
  (* transform, under the read lock *)
  | cs_transform s es k : c_cons s !! k = Some (CGot es) →
      cstep s (CS (c_fd s) (c_m s) (c_q s) (c_pipe s) (c_loop s) (c_eclosed s) (<[k := CSend (sent (c_m s) es)]> (c_cons s)) (c_close s) (c_out s))
  (* i.c <- e, accepted by the dispatcher *)
  | cs_send s e l k : c_cons s !! k = Some (CSend (e :: l)) →
      cstep s (CS (c_fd s) (c_m s) (c_q s) (c_pipe s) (c_loop s) (c_eclosed s) (<[k := CSend l]> (c_cons s)) (c_close s) (c_out s ++ [e]))
  | cs_next s k : c_cons s !! k = Some (CSend []) →
      cstep s (CS (c_fd s) (c_m s) (c_q s) (c_pipe s) (c_loop s) (c_eclosed s) (<[k := CWait]> (c_cons s)) (c_close s) (c_out s))
  (* range over the closed esch ends; wg.Done *)
  | cs_end s k : c_cons s !! k = Some CWait → c_eclosed s = true →
      cstep s (CS (c_fd s) (c_m s) (c_q s) (c_pipe s) (c_loop s) (c_eclosed s) (<[k := CEnd]> (c_cons s)) (c_close s) (c_out s))
  (* wg.Wait returns (:389) *)
  | cs_ret s : c_close s = KWaiting → Forall (λ c, c = CEnd) (c_cons s) →
      cstep s (CS (c_fd s) (c_m s) (c_q s) (c_pipe s) (c_loop s) (c_eclosed s) (c_cons s) KReturned (c_out s)).
(** Steps of the outside: the kernel queues records, watches are added and removed
    (none of it once Close has been called: then there are no descriptors left and
    the library makes no further calls), Close is called (:370-388; that the write to
    the pipe succeeds is assumed). *)
Inductive ostep : cstt → cstt → Prop :=
  | os_kernel s es : c_close s = KNone →
      ostep s (CS (c_fd s) (c_m s) (c_q s ++ [es]) (c_pipe s) (c_loop s) (c_eclosed s) (c_cons s) (c_close s) (c_out s))
  | os_watch s m : c_close s = KNone →
      ostep s (CS (c_fd s) m (c_q s) (c_pipe s) (c_loop s) (c_eclosed s) (c_cons s) (c_close s) (c_out s))
  | os_close s : c_close s = KNone → c_fd s = true →
      ostep s (CS (c_fd s) ∅ (c_q s ++ [ignored (c_m s)]) (S (c_pipe s)) (c_loop s) (c_eclosed s) (c_cons s) KWaiting (c_out s)).
Inductive creach : cstt → Prop :=
  | cr_init : creach cinit
  | cr_step s s' : creach s → cstep s s' ∨ ostep s s' → creach s'.
Inductive lreach : lst → Prop :=
  | lr_init : lreach linit
  | lr_step s s' : lreach s → lstep s s' → lreach s'.
