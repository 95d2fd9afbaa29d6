(** * TriggerInit: setting up the kqueue and the FEN watcher when system calls fail
    (/repo/watcher_trigger.go:102-115, /repo/watcher_kqueue.go:102-117, /repo/watcher_fen.go:88-91). *)
From Verif Require Import Base.
Local Open Scope Z_scope.

(** What an open descriptor is: the kqueue or event port, the ends of its pipe, the program's
    ([w]: open for writing). *)
Inductive ikind := IPort | IPipR | IPipW | IApp (w : bool).
Notation itab := (gmap Z ikind).
(** System calls on descriptors that exist, with what the number denotes: close; write of a
    zero byte or port_alert, and whether it succeeds. *)
Inductive icall := IClose (n : Z) (k : option ikind) | IStop (n : Z) (k : option ikind) (ok : bool).
(** How newWatcher ends: a watcher with a running monitor; watcherStub; not at all: Close waits
    for t.s (/repo/watcher_trigger.go:124), on which only the monitor sends, and it was not
    started (/repo/watcher_trigger.go:113). *)
Inductive iend := IStarted | IStub | IStuck.
Record iout := IO { io_tab : itab; io_log : list icall; io_end : iend }.

(** What the OS answers: the new descriptors, or an error. *)
Record ians := IA { ia_kq : option Z; ia_pipe : option (Z * Z); ia_kev : bool }.
(** Init of kqueue: the table, fd, pipefds[1], calls, success.  The fields are zero before
    (/repo/watcher_kqueue.go:19-22) and pipefds stays so if Pipe fails; a failing Kqueue gives -1. *)
Definition kq_init (t : itab) (A : ians) : itab * Z * Z * list icall * bool :=
  match ia_kq A with
  | None => (t, -1, 0, [], false)
  | Some n =>
      let t := <[n := IPort]> t in
      match ia_pipe A with
      | None => (delete n t, n, 0, [IClose n (t !! n)], false)
      | Some (r, w) =>
          let t := <[w := IPipW]> (<[r := IPipR]> t) in
          if ia_kev A then (t, n, w, [], true) else (delete n t, n, w, [IClose n (t !! n)], false)
      end
  end.
(** Stop of kqueue (/repo/watcher_kqueue.go:47-51): a byte fits into the new pipe. *)
Definition writable (k : option ikind) : bool :=
  match k with Some IPipW => true | Some (IApp w) => w | _ => false end.
(** newWatcher, with the Close it calls when Init fails (/repo/watcher_trigger.go:109-112):
    Close returns at once if Stop fails (/repo/watcher_trigger.go:120-123). *)
Definition kq_newWatcher (t : itab) (A : ians) : iout :=
  let '(t, fd, p1, l, ok) := kq_init t A in
  if ok then IO t l IStarted
  else
    let w := writable (t !! p1) in
    IO t (l ++ [IStop p1 (t !! p1) w]) (if w then IStuck else IStub).

(** FEN: Init is portCreate (/repo/watcher_fen_cgo.go:122-125), which gives -1 if it fails; Stop is
    portAlert (/repo/watcher_fen_cgo.go:127-130), which needs a port. *)
Definition fen_newWatcher (t : itab) (port : option Z) : iout :=
  match port with
  | Some n => IO (<[n := IPort]> t) [] IStarted
  | None =>
      let w := match t !! (-1) with Some IPort => true | _ => false end in
      IO t [IStop (-1) (t !! (-1)) w] (if w then IStuck else IStub)
  end.
