(** * MacConc: the macOS watcher with its streams, as two threads.

    One thread makes the calls of the watcher (the tree holds its lock during them); the
    other is the serial dispatch queue of /repo/watcher_fsevents_cgo.go:43-46, on which
    the callbacks of all streams run one after the other.  The threads share the table of
    stream functions, the sets of the watches and the streams of the OS; every access to
    one of these is one step. *)
From Verif Require Import Base Event Paths Node SpecOS Fsev.
Local Open Scope N_scope.

(** An object of type watch and its stream: [o_ref] and [o_info] are the fields ref and
    info (/repo/watcher_fsevents.go:44-55, /repo/watcher_fsevents_cgo.go:117-121). *)
Record wobj := WObj { o_w : fwatch; o_ref : option N; o_info : N }.
(** An FSEventStream of the OS: the info given to its callback, its path, the event id it
    starts at, and whether it is running. *)
Record osstream := OSStream { os_info : N; os_path : str; os_since : N; os_run : bool }.

(** The thread of the calls, inside a call.  Objects and streams are named by numbers. *)
Inductive cpc :=
  | CNew (p : str) (e : N) (k : bool)              (* watch: the table has no entry for p *)
  | CCreate (p : str) (w : N)                      (* in Start, before FSEventStreamCreate *)
  | CStart (p : str) (w r : N)                     (* before FSEventStreamStart *)
  | CIns (p : str) (w r : N)                       (* after it *)
  | CStop (p : str) (w : N) (cont : option (str * N))    (* unwatch: before FSEventStreamStop *)
  | CUnreg (p : str) (w : N) (cont : option (str * N))   (* before streamFuncs.delete *)
  | CDel (p : str) (w : N) (cont : option (str * N))     (* before the deletion in the table *)
  | CRec (w : N) (k : bool).                       (* the set is stored, before the store to isrec *)
(** The dispatch queue. *)
Inductive qpc :=
  | QIdle
  | QFound (r w : N) (evs : list fsevent)          (* gostream has got the function of watch w *)
  | QEv (r w : N) (evs : list fsevent) (e : N)     (* Dispatch has loaded events *)
  | QRun (w e : N) (k : bool) (evs : list fsevent) (out : list (fsevent * N)).  (* in the loop *)

Record mst := MSt {
  m_reg : gmap N N;                    (* streamFuncs.m: the watch whose Dispatch it is *)
  m_cnt : N;                           (* streamFuncs.i; simplification: it does not wrap around *)
  m_objs : gmap N wobj;
  m_tab : gmap str N;                  (* fsevents.watches *)
  m_os : gmap N osstream;              (* streams that have not been released *)
  m_since : N;                         (* since *)
  m_pend : list (N * list fsevent);    (* callbacks waiting in the queue, with their stream *)
  m_call : option (wcall * cpc);
  m_q : qpc;
  m_sent : list (N * (fsevent * N));   (* what was sent to the channel of the tree, by watch *)
  m_begun : list (N * N * (N * bool * list fsevent));  (* ghost: stream, watch; values loaded by Dispatch, batch *)
  m_log : list (wcall * option fserr); (* ghost: calls that have returned *)
}.
Definition set_reg s x := MSt x (m_cnt s) (m_objs s) (m_tab s) (m_os s) (m_since s) (m_pend s) (m_call s) (m_q s) (m_sent s) (m_begun s) (m_log s).
Definition set_cnt s x := MSt (m_reg s) x (m_objs s) (m_tab s) (m_os s) (m_since s) (m_pend s) (m_call s) (m_q s) (m_sent s) (m_begun s) (m_log s).
Definition set_objs s x := MSt (m_reg s) (m_cnt s) x (m_tab s) (m_os s) (m_since s) (m_pend s) (m_call s) (m_q s) (m_sent s) (m_begun s) (m_log s).
Definition set_tab s x := MSt (m_reg s) (m_cnt s) (m_objs s) x (m_os s) (m_since s) (m_pend s) (m_call s) (m_q s) (m_sent s) (m_begun s) (m_log s).
Definition set_os s x := MSt (m_reg s) (m_cnt s) (m_objs s) (m_tab s) x (m_since s) (m_pend s) (m_call s) (m_q s) (m_sent s) (m_begun s) (m_log s).
Definition set_since s x := MSt (m_reg s) (m_cnt s) (m_objs s) (m_tab s) (m_os s) x (m_pend s) (m_call s) (m_q s) (m_sent s) (m_begun s) (m_log s).
Definition set_pend s x := MSt (m_reg s) (m_cnt s) (m_objs s) (m_tab s) (m_os s) (m_since s) x (m_call s) (m_q s) (m_sent s) (m_begun s) (m_log s).
Definition set_call s x := MSt (m_reg s) (m_cnt s) (m_objs s) (m_tab s) (m_os s) (m_since s) (m_pend s) x (m_q s) (m_sent s) (m_begun s) (m_log s).
Definition set_q s x := MSt (m_reg s) (m_cnt s) (m_objs s) (m_tab s) (m_os s) (m_since s) (m_pend s) (m_call s) x (m_sent s) (m_begun s) (m_log s).
Definition set_sent s x := MSt (m_reg s) (m_cnt s) (m_objs s) (m_tab s) (m_os s) (m_since s) (m_pend s) (m_call s) (m_q s) x (m_begun s) (m_log s).
Definition set_begun s x := MSt (m_reg s) (m_cnt s) (m_objs s) (m_tab s) (m_os s) (m_since s) (m_pend s) (m_call s) (m_q s) (m_sent s) x (m_log s).
Definition set_log s x := MSt (m_reg s) (m_cnt s) (m_objs s) (m_tab s) (m_os s) (m_since s) (m_pend s) (m_call s) (m_q s) (m_sent s) (m_begun s) x.
(** At the start of the program (/repo/watcher_fsevents_cgo.go:39,88, /repo/watcher_fsevents.go:182-187). *)
Definition mst0 (since : N) : mst := MSt ∅ 0 ∅ ∅ ∅ since [] None QIdle [] [] [].

Definition set_ev (o : wobj) (e : N) : wobj := WObj (with_events (o_w o) e (fw_isrec (o_w o))) (o_ref o) (o_info o).
Definition set_rec (o : wobj) (k : bool) : wobj := WObj (with_events (o_w o) (fw_events (o_w o)) k) (o_ref o) (o_info o).
Definition set_ref (o : wobj) (r : option N) : wobj := WObj (o_w o) r (o_info o).
Definition stopped (o : osstream) : osstream := OSStream (os_info o) (os_path o) (os_since o) false.
Definition running (o : osstream) : osstream := OSStream (os_info o) (os_path o) (os_since o) true.

(** The call returns. *)
Definition ret (s : mst) (c : wcall) (err : option fserr) : mst := set_log (set_call s None) (m_log s ++ [(c, err)]).
Definition goto (s : mst) (c : wcall) (pc : cpc) : mst := set_call s (Some (c, pc)).

(** The beginning of a call: the lookups in the table, which only this thread uses, and
    the compare-and-swap (/repo/watcher_fsevents.go:189-192,208-212,234-241,271-302).  The
    error of a failed compare-and-swap in RecursiveRewatch is named as in Rewatch. *)
Definition m_swap (s : mst) (c : wcall) (p : str) (old new : N) (k : bool) : mst :=
  match m_tab s !! p with
  | None => ret s c (Some ErrNotWatched)
  | Some w =>
      match m_objs s !! w with
      | None => s   (* cannot happen *)
      | Some o => if fw_events (o_w o) =? old then goto (set_objs s (<[w := set_ev o new]> (m_objs s))) c (CRec w k)
                  else ret s c (Some ErrInvalidEventSet)
      end
  end.
Definition m_begin (s : mst) (c : wcall) : mst :=
  match c with
  | WWatch p e => if m_tab s !! p then ret s c (Some ErrAlreadyWatched) else goto s c (CNew p e false)
  | WRecWatch p e => if m_tab s !! p then ret s c (Some ErrAlreadyWatched) else goto s c (CNew p e true)
  | WUnwatch p | WRecUnwatch p =>
      match m_tab s !! p with None => ret s c (Some ErrNotWatched) | Some w => goto s c (CStop p w None) end
  | WRewatch p old new => m_swap s c p old new false
  | WRecRewatch p q old new =>
      if bool_decide (p = q) then
        if old =? new then
          match m_tab s !! p with None => ret s c (Some ErrNotWatched) | Some w => goto s c (CRec w true) end
        else m_swap s c p old new true
      else if m_tab s !! q then ret s c (Some ErrAlreadyWatched)
      else match m_tab s !! p with None => ret s c (Some ErrNotWatched) | Some w => goto s c (CStop p w (Some (q, new))) end
  end.

(** Steps.  Sending to the channel of the tree is one step, taken when there is room. *)
Inductive mstep : mst → mst → Prop :=
  | ms_begin s c : m_call s = None → mstep s (m_begin s c)
  (* /repo/watcher_fsevents.go:193-200, /repo/watcher_fsevents_cgo.go:102-108,125-130: a new object, its Dispatch is registered *)
  | ms_new s c p e k w : m_call s = Some (c, CNew p e k) → m_objs s !! w = None →
      mstep s (goto (set_reg (set_cnt (set_objs s (<[w := WObj (FWatch ∅ p e k false) None (m_cnt s + 1)]> (m_objs s)))
                                      (m_cnt s + 1)) (<[m_cnt s + 1 := w]> (m_reg s))) c (CCreate p w))
  (* /repo/watcher_fsevents_cgo.go:135-144 *)
  | ms_create_fail s c p w : m_call s = Some (c, CCreate p w) → mstep s (ret s c (Some ErrStart))
  | ms_create s c p w o r : m_call s = Some (c, CCreate p w) → m_objs s !! w = Some o → m_os s !! r = None →
      mstep s (goto (set_os s (<[r := OSStream (o_info o) p (m_since s) false]> (m_os s))) c (CStart p w r))
  (* /repo/watcher_fsevents_cgo.go:145-149: the stream is invalidated, not released *)
  | ms_start_fail s c p w r : m_call s = Some (c, CStart p w r) → mstep s (ret s c (Some ErrStart))
  | ms_start s c p w r o : m_call s = Some (c, CStart p w r) → m_os s !! r = Some o →
      mstep s (goto (set_os s (<[r := running o]> (m_os s))) c (CIns p w r))
  (* /repo/watcher_fsevents_cgo.go:150, /repo/watcher_fsevents.go:204 *)
  | ms_ins s c p w r o : m_call s = Some (c, CIns p w r) → m_objs s !! w = Some o →
      mstep s (ret (set_tab (set_objs s (<[w := set_ref o (Some r)]> (m_objs s))) (<[p := w]> (m_tab s))) c None)
  (* /repo/watcher_fsevents_cgo.go:156-158: nothing to stop *)
  | ms_stop_nil s c p w cont o : m_call s = Some (c, CStop p w cont) → m_objs s !! w = Some o → o_ref o = None →
      mstep s (goto s c (CDel p w cont))
  (* /repo/watcher_fsevents_cgo.go:159-161: callbacks already in the queue stay there *)
  | ms_stop s c p w cont o r x : m_call s = Some (c, CStop p w cont) → m_objs s !! w = Some o → o_ref o = Some r → m_os s !! r = Some x →
      mstep s (goto (set_objs (set_os s (<[r := stopped x]> (m_os s))) (<[w := set_ref o None]> (m_objs s))) c (CUnreg p w cont))
  (* /repo/watcher_fsevents_cgo.go:162,110-114 *)
  | ms_unreg s c p w cont o : m_call s = Some (c, CUnreg p w cont) → m_objs s !! w = Some o →
      mstep s (goto (set_reg s (delete (o_info o) (m_reg s))) c (CDel p w cont))
  (* /repo/watcher_fsevents.go:214-215,296-300 *)
  | ms_del s c p w : m_call s = Some (c, CDel p w None) → mstep s (ret (set_tab s (delete p (m_tab s))) c None)
  | ms_del_move s c p w q e : m_call s = Some (c, CDel p w (Some (q, e))) →
      mstep s (goto (set_tab s (delete p (m_tab s))) c (CNew q e true))
  (* /repo/watcher_fsevents.go:242,278,288 *)
  | ms_rec s c w k o : m_call s = Some (c, CRec w k) → m_objs s !! w = Some o →
      mstep s (ret (set_objs s (<[w := set_rec o k]> (m_objs s))) c None)
  (* the OS hands a batch of a running stream to the queue *)
  | ms_feed s r x evs : m_os s !! r = Some x → os_run x = true → mstep s (set_pend s (m_pend s ++ [(r, evs)]))
  (* /repo/watcher_fsevents_cgo.go:61-67 *)
  | ms_pop_empty s r l : m_q s = QIdle → m_pend s = (r, []) :: l → mstep s (set_pend s l)
  | ms_pop_unknown s r x evs l : m_q s = QIdle → m_pend s = (r, evs) :: l → evs ≠ [] → m_os s !! r = Some x →
      m_reg s !! os_info x = None → mstep s (set_pend s l)
  | ms_pop s r x evs l w : m_q s = QIdle → m_pend s = (r, evs) :: l → evs ≠ [] → m_os s !! r = Some x →
      m_reg s !! os_info x = Some w → mstep s (set_q (set_pend s l) (QFound r w evs))
  (* /repo/watcher_fsevents_cgo.go:68-83, /repo/watcher_fsevents.go:120: [since] becomes the current id if ids wrapped *)
  | ms_load_ev s r w evs o id : m_q s = QFound r w evs → m_objs s !! w = Some o → (id = m_since s ∨ gostream evs ≠ evs) →
      mstep s (set_q (set_since s id) (QEv r w (gostream evs) (fw_events (o_w o))))
  (* /repo/watcher_fsevents.go:121 *)
  | ms_load_rec s r w evs e o : m_q s = QEv r w evs e → m_objs s !! w = Some o →
      mstep s (set_begun (set_q s (QRun w e (fw_isrec (o_w o)) evs [])) (m_begun s ++ [(r, w, (e, fw_isrec (o_w o), evs))]))
  (* /repo/watcher_fsevents.go:122-163 *)
  | ms_next s w e k ev evs o : m_q s = QRun w e k (ev :: evs) [] → m_objs s !! w = Some o →
      mstep s (set_q (set_objs s (<[w := WObj (dispatch1 e k (o_w o) ev).1 (o_ref o) (o_info o)]> (m_objs s)))
                     (QRun w e k evs (dispatch1 e k (o_w o) ev).2))
  | ms_send s w e k evs x out : m_q s = QRun w e k evs (x :: out) →
      mstep s (set_sent (set_q s (QRun w e k evs out)) (m_sent s ++ [(w, x)]))
  | ms_done s w e k : m_q s = QRun w e k [] [] → mstep s (set_q s QIdle).

(** A state the program can be in. *)
Inductive mreach : mst → Prop :=
  | mr_init since : mreach (mst0 since)
  | mr_step s s' : mreach s → mstep s s' → mreach s'.
Definition msteps : mst → mst → Prop := rtc mstep.
