(** * InotifyPipe: from the kernel's queue to the dispatcher's channel, step by step.

    The goroutines of one instance of /repo/watcher_inotify.go (the loop and its two
    consumers) run while watches are set and withdrawn: a call of Watch, Rewatch or
    Unwatch is a system call followed by an update of the table [i.m], and the others
    may run between the two.  The tree makes one such call at a time.  Setting up the
    instance is one action here ([lazyinit]); how its callers interleave, and Close, are
    in InotifyConc.v. *)
From Verif Require Import Base Event Paths Clean Inotify SpecInotify.
Local Open Scope N_scope.

(** ** The two halves of a call *)
(** The update of [i.m] that is still to be made. *)
Inductive mupd := MSet (wd : Z) (w : watched) | MDel (wd : Z).
Definition mapply (u : mupd) (m : gmap Z watched) : gmap Z watched :=
  match u with MSet wd w => <[wd := w]> m | MDel wd => delete wd m end.
(** watch up to the return of inotify_add_watch (/repo/watcher_inotify.go:86-96): [None]
    if the call fails. *)
Definition w_begin (ok : bool) (ino : option positive) (s : ist) (p : str) (e : N) : option (ist * mupd) :=
  if negb (e .&^ (All linux .| IN_ALL_EVENTS) =? 0) then None
  else match lazyinit ok s with
  | None => None
  | Some s => match ino with
              | None => None
              | Some ino => let '(s, wd) := kadd s ino (encode e) in Some (s, MSet wd (Wd p e))
              end
  end.
(** Unwatch up to the return of inotify_rm_watch (/repo/watcher_inotify.go:342-358).  The
    table is searched and the descriptor withdrawn in one action: nobody else writes the
    table. *)
Definition u_begin (ord : list (Z * watched) → list (Z * watched)) (ok : bool) (s : ist) (p : str) : option (ist * mupd) :=
  match head (filter (λ x, w_path x.2 = p) (ord (map_to_list (i_m s)))) with
  | None => None
  | Some (wd, _) => if ok then Some (krm s wd, MDel wd) else None
  end.
Definition begin (E : ienv) (s : ist) (o : iop) : option (ist * mupd) :=
  match o with
  | IWatch p e => w_begin (ie_ok E) (ie_ino E) s p e
  | IUnwatch p => u_begin (ie_ord E) (ie_ok E) s p
  | _ => None
  end.
Definition set_m (s : ist) (m : gmap Z watched) : ist := ISt (i_open s) m (i_k s) (i_next s).

(** The records the kernel queues about descriptors that are no more (inotify(7)). *)
Definition ignored_of (k k' : gmap Z kwatch) : list raw :=
  (λ x : Z * kwatch, Raw x.1 IN_IGNORED 0 []) <$> map_to_list (filter (λ x, k' !! x.1 = None) k).
Definition overflow : raw := Raw (-1) IN_Q_OVERFLOW 0 [].

(** ** Goroutines *)
(** The loop (/repo/watcher_inotify.go:185-214): waiting in epoll_wait, offering batch
    number [k] to the consumers. *)
Inductive qloop := QPoll | QGive (k : nat) (es : list raw).
(** A consumer (/repo/watcher_inotify.go:248-257): waiting for a batch, having received
    one, sending the events made of it. *)
Inductive qcons := QWait | QGot (k : nat) (es : list raw) | QSend (k : nat) (l : list ievent).
(** [p_call]: the call that has made its system call but not yet updated the table;
    [p_q]: the kernel's queue; [p_n]: the number of batches read so far. *)
Record pst := PS {
  p_i : ist;
  p_call : option (ienv * iop * mupd);
  p_q : list raw;
  p_n : nat;
  p_loop : qloop;
  p_cons : list qcons;
}.
(** /repo/watcher_inotify.go:30 (consumersCount) *)
Definition pinit : pst := PS inew None [] 0 QPoll [QWait; QWait].

(** What happens in a step, with the records the kernel queues: a call makes its system
    call, updates the table and returns nil, or fails; something ([ev], as in
    [kernel_reports]) happens to file [f] and is reported; or is not because the queue is
    full; a file goes; the loop reads batch [k]; batch [k] is translated; an event of it
    is sent; all of it has been sent; anything else. *)
Inductive plab :=
  | PBegin (E : ienv) (o : iop) (rs : list raw)
  | PEnd (E : ienv) (o : iop)
  | PFail (E : ienv) (o : iop)
  | PReport (f : positive) (ev : N) (isdir : bool) (cookie : N) (name : str) (r : raw) (rs : list raw)
  | PLost (rs : list raw)
  | PGone (f : positive) (rs : list raw)
  | PRead (k : nat) (es : list raw)
  | PTrans (k : nat)
  | PSent (k : nat) (e : ievent)
  | PDone (k : nat)
  | PTau.

Inductive pstep : pst → plab → pst → Prop :=
  (* calls *)
  | ps_begin s E o i u : ienv_ok E → p_call s = None → begin E (p_i s) o = Some (i, u) →
      pstep s (PBegin E o (ignored_of (i_k (p_i s)) (i_k i)))
        (PS i (Some (E, o, u)) (p_q s ++ ignored_of (i_k (p_i s)) (i_k i)) (p_n s) (p_loop s) (p_cons s))
  (* i.Lock, the update, i.Unlock (:97-104, :359-361) *)
  | ps_end s E o u : p_call s = Some (E, o, u) →
      pstep s (PEnd E o) (PS (set_m (p_i s) (mapply u (i_m (p_i s)))) None (p_q s) (p_n s) (p_loop s) (p_cons s))
  | ps_fail s E o i : ienv_ok E → p_call s = None → o ≠ IClose → (∀ f, o ≠ IGone f) → istep E (p_i s) o = (i, false) →
      pstep s (PFail E o) (PS i None (p_q s) (p_n s) (p_loop s) (p_cons s))
  (* the kernel: a record equal to the last one in the queue may be left out *)
  | ps_report s f ev isdir cookie name r rs : kernel_reports (p_i s) f ev isdir cookie name r →
      rs = [r] ∨ rs = [] ∧ last (p_q s) = Some r →
      pstep s (PReport f ev isdir cookie name r rs) (PS (p_i s) (p_call s) (p_q s ++ rs) (p_n s) (p_loop s) (p_cons s))
  | ps_lost s rs : i_open (p_i s) = true → rs = [] ∨ rs = [overflow] →
      pstep s (PLost rs) (PS (p_i s) (p_call s) (p_q s ++ rs) (p_n s) (p_loop s) (p_cons s))
  | ps_gone s f : let i := k_gone (p_i s) f in
      pstep s (PGone f (ignored_of (i_k (p_i s)) (i_k i)))
        (PS i (p_call s) (p_q s ++ ignored_of (i_k (p_i s)) (i_k i)) (p_n s) (p_loop s) (p_cons s))
  (* epoll_wait returns; read (:190-194, :218-243): as many records as fit, none on an
     error *)
  | ps_read s es q : p_loop s = QPoll → i_open (p_i s) = true → p_q s = es ++ q →
      pstep s (PRead (p_n s) es) (PS (p_i s) (p_call s) q (S (p_n s)) (QGive (p_n s) es) (p_cons s))
  (* esch <- es, received by one of the consumers *)
  | ps_give s k es j : p_loop s = QGive k es → p_cons s !! j = Some QWait →
      pstep s PTau (PS (p_i s) (p_call s) (p_q s) (p_n s) QPoll (<[j := QGot k es]> (p_cons s)))
  (* transform, under the read lock (:263-289) *)
  | ps_trans s k es j : p_cons s !! j = Some (QGot k es) →
      pstep s (PTrans k) (PS (p_i s) (p_call s) (p_q s) (p_n s) (p_loop s) (<[j := QSend k (sent (i_m (p_i s)) es)]> (p_cons s)))
  (* i.c <- e *)
  | ps_sent s k e l j : p_cons s !! j = Some (QSend k (e :: l)) →
      pstep s (PSent k e) (PS (p_i s) (p_call s) (p_q s) (p_n s) (p_loop s) (<[j := QSend k l]> (p_cons s)))
  | ps_done s k j : p_cons s !! j = Some (QSend k []) →
      pstep s (PDone k) (PS (p_i s) (p_call s) (p_q s) (p_n s) (p_loop s) (<[j := QWait]> (p_cons s))).
Inductive prun : list plab → pst → Prop :=
  | prun_init : prun [] pinit
  | prun_step ls s l s' : prun ls s → pstep s l s' → prun (ls ++ [l]) s'.
