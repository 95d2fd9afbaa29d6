(** * EventSys: what an EventInfo says besides its event and its path: Sys and String. *)
From Verif Require Import Base Event Paths Clean Trigger.
From Verif Require Inotify Fsev Readdcw EventString.
Local Open Scope N_scope.

(** The values Sys returns, one constructor for each Go type: *unix.InotifyEvent,
    *FSEvent (/repo/watcher_fsevents.go:24-28), *Kevent (named in /repo/event.go:95-98 and
    declared nowhere), syscall.Kevent_t and PortEvent (/repo/watcher_fen_cgo.go:38-44; of both
    the fields the package looks at), uint8. *)
Inductive sysval :=
  | SNil
  | SInotify (wd : Z) (mask cookie len : N)
  | SFSEvent (p : str) (id flags : N)
  | SKevent (fd : nat) (fflags : N)
  | SKevent_t (fd : nat) (fflags : N)
  | SPortEvent (name : str) (events : N)
  | SUint8 (n : N).

(** /repo/event_inotify.go:75; the three fields are copied in read and in decode
    (/repo/watcher_inotify.go:234-238,316-320), Len is not. *)
Definition sys_inotify (e : Inotify.ievent) : sysval :=
  SInotify (Inotify.ie_wd e) (Inotify.ie_mask e) (Inotify.ie_cookie e) 0.
(** /repo/event_fsevents.go:71; the event is the one Dispatch sends
    (/repo/watcher_fsevents.go:155-160). *)
Definition sys_fsevents (x : Fsev.fsevent * N) : sysval :=
  SFSEvent (Fsev.fe_path x.1) (Fsev.fe_id x.1) (Fsev.fe_flags x.1).
(** /repo/event_readdcw.go:108; the constants are in lines 90-94. *)
Definition sys_readdcw (e : Readdcw.rdevent) : sysval :=
  SUint8 match Readdcw.re_ftype e with fTypeUnknown => 0 | fTypeFile => 1 | fTypeDirectory => 2 end.
(** /repo/event_stub.go:30 *)
Definition sys_stub : sysval := SNil.

(** ** kqueue and FEN: the functions of Trigger.v that make events, with the native event
    they pass on. *)
Section trigger.
Context (T : trig).
Local Notation P := (t_plat T).
(** What Wait returned: which file, and what happened (/repo/watcher_kqueue.go:140-149,
    /repo/watcher_fen.go:112-119).  Watched takes it apart (/repo/watcher_kqueue.go:152-161,
    /repo/watcher_fen.go:74-85). *)
Definition native : Type := ident * N.
(** /repo/event_trigger.go:10-15; [None] is nil. *)
Record pevent := PE { pe_ev : tevent; pe_pe : option native }.
(** /repo/event_trigger.go:21 *)
Definition sys_trigger (x : pevent) : sysval :=
  match pe_pe x with
  | None => SNil
  | Some (inl fd, ge) => SKevent_t fd ge
  | Some (inr p, ge) => SPortEvent p ge
  end.
(** /repo/watcher_trigger.go:315-329 *)
Definition p_moved1 (A : answers) (w : tw) (e : N) (acc : tstate * list pevent) (k : str) : tstate * list pevent :=
  let '(s, evn) := acc in
  if has_prefix (tw_p w ++ [slash]) k then
    let s := (singleunwatch T s A k MBoth).1 in
    (s, if nonzero (tw_e w .& (t_rename T .| Rename P))
        then evn ++ [PE (TE k (tw_e w .& e .&^ Write P .&^ t_write T) (tw_dir w)) None] else evn)
  else (s, evn).
(** /repo/watcher_trigger.go:335-348 *)
Definition p_rescan1 (n : native) (A : answers) (w : tw) (acc : tstate * list pevent) (fi : finfo) : tstate * list pevent :=
  let '(s, evn) := acc in
  let p := join (tw_p w) (fi_name fi) in
  let '(s, r) := singlewatch T s A p (tw_eDir w) MNDir (fi_dir fi) in
  (s, if bool_decide (r = RNotExist) && nonzero (tw_eDir w .& Remove P) then evn ++ [PE (TE p (Remove P) (fi_dir fi)) (Some n)]
      else match r with
           | RAlready => evn
           | ROk => if nonzero (tw_eDir w .& Create P) then evn ++ [PE (TE p (Create P) (fi_dir fi)) (Some n)] else evn
           | _ => evn
           end).
(** /repo/watcher_trigger.go:302-357 *)
Definition p_dir (n : native) (s : tstate) (A : answers) (ord : list str) (i : nat) (w : tw) (e ge : N) : tstate * list pevent :=
  if nonzero (ge .& native_gone T) then
    let evn := [PE (TE (tw_p w) (e .&^ Write P .&^ t_write T) true) (Some n)] in
    let '(s, evn) := if nonzero (ge .& t_rename T) then foldl (p_moved1 A w e) (s, evn) ord else (s, evn) in
    (t_Del T s i, evn)
  else if nonzero (ge .& t_write T) then
    match a_ls A (tw_p w) with
    | None => (s, [])
    | Some ls => foldl (p_rescan1 n A w) (s, []) ls
    end
  else (s, []).
(** /repo/watcher_trigger.go:297-300 *)
Definition p_file (n : native) (w : tw) (e : N) : list pevent := [PE (TE (tw_p w) e (tw_dir w)) (Some n)].
(** /repo/watcher_trigger.go:419-454, see trg_process in Trigger.v *)
Definition p_process (s : tstate) (st : option bool) (A : answers) (ord : list str) (n : native) : tstate * list pevent :=
  let '(k, ge) := n in
  let s := if t_fds T then s else set_reg s (delete k (ts_reg s)) in
  match t_Watched T s k with
  | None => (s, [])
  | Some i =>
      match ts_heap s !! i with
      | None => (s, [])
      | Some w =>
          let e := decode (t_nat2not T) ge (tw_e w) in
          let s :=
            if ge .& native_gone T =? 0 then
              match st with
              | None => s
              | Some d => match t_Watch T s A i (t_encode T (tw_e w) d) with
                          | (s, ROk) => s
                          | (s, _) => t_Del T s i
                          end
              end
            else s in
          if (e =? 0) && (negb (tw_dir w) || (ge .& t_write T =? 0)) then (s, [])
          else
            let '(s, evn) := if tw_dir w then p_dir n s A ord i w e ge else (s, p_file n w e) in
            (if nonzero (ge .& native_gone T) then t_Del T s i else s, evn)
      end
  end.
End trigger.

(** ** String of an event (/repo/event.go:122-124), [es] being the text of its event *)
Definition quote : ascii := """".
Definition colon : ascii := ":".
Definition info_String (es path : str) : str := es ++ [colon; " "%char; quote] ++ path ++ [quote].

(** ** The loop of ExampleWatch_linuxMove (/repo/example_inotify_test.go:62-84): one event.
    [moves] is the map; what is printed is collected, with the cookie. *)
Definition pair1 (acc : gmap N (str * str) * list (N * (str * str))) (e : Inotify.ievent) : gmap N (str * str) * list (N * (str * str)) :=
  let '(moves, out) := acc in
  match sys_inotify e with
  | SInotify _ _ cookie _ =>
      let '(from, to) := default ([], []) (moves !! cookie) in
      let '(from, to) := if Inotify.ie_event e =? Inotify.InMovedFrom then (Inotify.ie_path e, to)
                         else if Inotify.ie_event e =? Inotify.InMovedTo then (from, Inotify.ie_path e)
                         else (from, to) in
      if negb (cookie =? 0) && bool_decide (from ≠ []) && bool_decide (to ≠ [])
      then (delete cookie moves, out ++ [(cookie, (from, to))])
      else (<[cookie := (from, to)]> moves, out)
  | _ => acc   (* the type assertion panics; not reached *)
  end.
Definition pair_all (es : list Inotify.ievent) : list (N * (str * str)) := (foldl pair1 (∅, []) es).2.
