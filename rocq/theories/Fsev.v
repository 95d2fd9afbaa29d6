(** * Fsev: the watcher of /repo/watcher_fsevents.go (macOS).

    The stream of C callbacks (/repo/watcher_fsevents_cgo.go) is a sequence of batches
    per watch; whether starting a stream succeeds is decided by an oracle. *)
From Verif Require Import Base Event Paths Node SpecOS.
Local Open Scope N_scope.

(** ** Constants (/repo/event_fsevents.go:24-44) *)
Definition FSEventsMustScanSubDirs : N := 0x1.
Definition FSEventsUserDropped : N := 0x2.
Definition FSEventsKernelDropped : N := 0x4.
Definition FSEventsEventIdsWrapped : N := 0x8.
Definition FSEventsHistoryDone : N := 0x10.
Definition FSEventsCreated : N := 0x100.
Definition FSEventsRemoved : N := 0x200.
Definition FSEventsInodeMetaMod : N := 0x400.
Definition FSEventsRenamed : N := 0x800.
Definition FSEventsModified : N := 0x1000.
Definition FSEventsIsDir : N := 0x20000.
(** /repo/watcher_fsevents.go:17 *)
Definition fs_failure : N := FSEventsMustScanSubDirs .| FSEventsUserDropped .| FSEventsKernelDropped.

(** /repo/watcher_fsevents.go:24-28 *)
Record fsevent := FSEvent { fe_path : str; fe_id : N; fe_flags : N }.

(** /repo/watcher_fsevents.go:31-38: the loop, [i] and [set] being its variables; uint32
    shifts drop the bits shifted out.  [fuel] bounds the iterations: a set of [n]
    significant bits takes [n]. *)
Fixpoint splitloop (fuel : nat) (i set : N) : list N :=
  match fuel with
  | O => []
  | S fuel =>
      if set =? 0 then []
      else (if negb (set .& 1 =? 0) then [i] else []) ++
           splitloop fuel (N.shiftl i 1 .& all32) (N.shiftr set 1)
  end.
Definition splitflags (set : N) : list N := splitloop (N.to_nat (N.size set)) 1 set.

(** /repo/watcher_fsevents.go:44-55.  The stream and the channel are implicit. *)
Record fwatch := FWatch {
  fw_prev : gmap str N;
  fw_path : str;
  fw_events : N;
  fw_isrec : bool;
  fw_flushed : bool;
}.
Definition with_prev (x : fwatch) (p : gmap str N) : fwatch :=
  FWatch p (fw_path x) (fw_events x) (fw_isrec x) (fw_flushed x).
Definition with_flushed (x : fwatch) (f : bool) : fwatch :=
  FWatch (fw_prev x) (fw_path x) (fw_events x) (fw_isrec x) f.

(** /repo/watcher_fsevents.go:88-91 *)
Definition fs_write : N := FSEventsModified .| FSEventsInodeMetaMod.
Definition fs_both : N := FSEventsCreated .| FSEventsRemoved.
(** One [strip] (/repo/watcher_fsevents.go:92-114) given the entry [prev] of the path (0 if
    absent): the new entry (None: not written) and the effective set. *)
Definition strip1 (prev set : N) : option N * N :=
  if prev =? FSEventsCreated then
    let set := set .&^ FSEventsCreated in
    if negb (set .& FSEventsRemoved =? 0) then (Some FSEventsRemoved, set .&^ fs_write) else (None, set)
  else if prev =? FSEventsRemoved then
    let set := set .&^ FSEventsRemoved in
    (if negb (set .& FSEventsCreated =? 0) then Some FSEventsCreated else None, set)
  else if set .& fs_both =? FSEventsCreated then (Some FSEventsCreated, set)
  else if set .& fs_both =? FSEventsRemoved then (Some FSEventsRemoved, set .&^ fs_write)
  else (None, set).
Definition strip (x : fwatch) (base : str) (set : N) : fwatch * N :=
  let '(p, e) := strip1 (default 0 (fw_prev x !! base)) set in
  (match p with Some v => with_prev x (<[base := v]> (fw_prev x)) | None => x end, e).

(** The tests of /repo/watcher_fsevents.go:136-149: the rest of the path below the
    watched one if the event is forwarded. *)
Definition fs_base (slash : ascii) (path : str) (isrec : bool) (p : str) : option str :=
  let n := length path in
  if negb (bool_decide (take n p = path)) then None
  else if (n <? length p)%nat then
    match p !! n with
    | Some ch =>
        if negb (Ascii.eqb ch slash) then None
        else let base := drop (S n) p in
             if negb isrec && negb (bool_decide (indexSep slash base = None)) then None else Some base
    | None => None
    end
  else Some [].

(** One iteration of the loop of [Dispatch] (/repo/watcher_fsevents.go:122-162): the events
    sent.  [events] and [isrec] are the atomically loaded values. *)
Definition dispatch1 (events : N) (isrec : bool) (x : fwatch) (ev : fsevent) : fwatch * list (fsevent * N) :=
  if negb (fe_flags ev .& FSEventsHistoryDone =? 0) then (with_flushed x true, [])
  else if negb (fw_flushed x) then (x, [])
  else if negb (fe_flags ev .& fs_failure =? 0) && (fs_failure .& events =? 0) then (x, [])
  else match fs_base "/"%char (fw_path x) isrec (fe_path ev) with
       | None => (x, [])
       | Some base =>
           let '(x, set) := strip x base (fe_flags ev) in
           let e := set .& events in
           if e =? 0 then (x, []) else (x, (λ e, (ev, e)) <$> splitflags e)
       end.
(** /repo/watcher_fsevents.go:119-163 *)
Definition fs_dispatch (x : fwatch) (evs : list fsevent) : fwatch * list (fsevent * N) :=
  foldl (λ '(y, out) ev, let '(y, o) := dispatch1 (fw_events x) (fw_isrec x) y ev in (y, out ++ o)) (x, []) evs.
(** What happens to one watch: a batch is dispatched, or Rewatch stores a new set and kind
    (/repo/watcher_fsevents.go:234-302, the atomic stores). *)
Definition with_events (x : fwatch) (e : N) (isrec : bool) : fwatch :=
  FWatch (fw_prev x) (fw_path x) e isrec (fw_flushed x).
Inductive hop := HBatch (evs : list fsevent) | HSet (e : N) (isrec : bool).
Definition hstep (a : fwatch * list (fsevent * N)) (o : hop) : fwatch * list (fsevent * N) :=
  match o with
  | HBatch evs => let '(y, out) := fs_dispatch a.1 evs in (y, a.2 ++ out)
  | HSet e k => (with_events a.1 e k, a.2)
  end.
Definition fs_hist (x : fwatch) (ops : list hop) : fwatch * list (fsevent * N) := foldl hstep (x, []) ops.
(** The batch of one C callback (/repo/watcher_fsevents_cgo.go:68-82): records that only say
    that event ids wrapped are taken out. *)
Definition gostream (evs : list fsevent) : list fsevent :=
  filter (λ ev, fe_flags ev .& FSEventsEventIdsWrapped = 0) evs.

(** ** The table of watches (/repo/watcher_fsevents.go:177-311) *)
Inductive fserr := ErrAlreadyWatched | ErrNotWatched | ErrInvalidEventSet | ErrStart.
Notation fstab := (gmap str fwatch).
(** [start p] decides whether the stream for [p] can be started (errCreate/errStart,
    /repo/watcher_fsevents_cgo.go:134-152). *)
Section table.
Context (start : str → bool).
(** /repo/watcher_fsevents.go:189-206 *)
Definition fs_watch (m : fstab) (path : str) (event : N) (isrec : bool) : fstab * option fserr :=
  match m !! path with
  | Some _ => (m, Some ErrAlreadyWatched)
  | None => if start path then (<[path := FWatch ∅ path event isrec false]> m, None) else (m, Some ErrStart)
  end.
(** /repo/watcher_fsevents.go:208-216 *)
Definition fs_unwatch (m : fstab) (path : str) : fstab * option fserr :=
  match m !! path with
  | None => (m, Some ErrNotWatched)
  | Some _ => (delete path m, None)
  end.
(** /repo/watcher_fsevents.go:234-244 *)
Definition fs_rewatch (m : fstab) (path : str) (old new : N) : fstab * option fserr :=
  match m !! path with
  | None => (m, Some ErrNotWatched)
  | Some x => if fw_events x =? old then (<[path := with_events x new false]> m, None)
              else (m, Some ErrInvalidEventSet)
  end.
(** /repo/watcher_fsevents.go:271-302 *)
Definition fs_recrewatch (m : fstab) (oldpath newpath : str) (old new : N) : fstab * option fserr :=
  if bool_decide (oldpath = newpath) then
    match m !! oldpath with
    | None => (m, Some ErrNotWatched)
    | Some x =>
        if old =? new then (<[oldpath := with_events x (fw_events x) true]> m, None)
        else if fw_events x =? old then (<[oldpath := with_events x new true]> m, None)
        else (m, Some ErrInvalidEventSet)
    end
  else match m !! newpath with
       | Some _ => (m, Some ErrAlreadyWatched)
       | None => match fs_unwatch m oldpath with
                 | (m, Some e) => (m, Some e)
                 | (m, None) => fs_watch m newpath new true
                 end
       end.
(** /repo/watcher_fsevents.go:221-259, the calls of the watcher interface. *)
Definition fs_call (m : fstab) (c : wcall) : fstab * option fserr :=
  match c with
  | WWatch p e => fs_watch m p e false
  | WUnwatch p => fs_unwatch m p
  | WRewatch p old new => fs_rewatch m p old new
  | WRecWatch p e => fs_watch m p e true
  | WRecUnwatch p => fs_unwatch m p
  | WRecRewatch p q old new => fs_recrewatch m p q old new
  end.
End table.
Global Arguments splitflags : simpl never.
Global Arguments strip1 : simpl never.
