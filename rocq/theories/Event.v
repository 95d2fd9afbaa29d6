(** * Event: event values, platform constants and [EventInfo].

    Models /repo/event.go and the platform constant blocks of
    /repo/event_{inotify,kqueue,fen,fsevents,readdcw,stub}.go. *)
From Verif Require Import Base.
Local Open Scope N_scope.

(** The constants that every platform file defines (/repo/event.go:22-34) plus
    the two facts about the host the shared code depends on: the path separator
    ([os.PathSeparator], /repo/util.go:15) and whether watchpoint_readdcw.go
    (windows) or watchpoint_other.go is compiled in. *)
Record platform := Platform {
  Create : N;      (* /repo/event.go:25 osSpecificCreate *)
  Remove : N;      (* /repo/event.go:26 *)
  Write  : N;      (* /repo/event.go:27 *)
  Rename : N;      (* /repo/event.go:28 *)
  recursive : N;   (* e.g. /repo/event_inotify.go:20 *)
  omit : N;        (* e.g. /repo/event_inotify.go:23 *)
  windows : bool;  (* build tag of /repo/watchpoint_readdcw.go:5 *)
}.

(** /repo/event.go:31  All = Create | Remove | Write | Rename *)
Definition All (P : platform) : N := Create P .| Remove P .| Write P .| Rename P.
(** /repo/event.go:34  internal = recursive | omit *)
Definition internal (P : platform) : N := recursive P .| omit P.

(** /repo/event_inotify.go:13-24 *)
Definition linux : platform := Platform
  (N.shiftl 0x100000 0) (N.shiftl 0x100000 1) (N.shiftl 0x100000 2) (N.shiftl 0x100000 3)
  (N.shiftl 0x100000 4) (N.shiftl 0x100000 5) false.
(** /repo/event_kqueue.go:16-27 *)
Definition kqueue : platform := Platform
  (N.shiftl 0x100 0) (N.shiftl 0x100 1) (N.shiftl 0x100 2) (N.shiftl 0x100 3)
  (N.shiftl 0x100 4) (N.shiftl 0x100 5) false.
(** /repo/event_fen.go:10-21 *)
Definition fen : platform := Platform
  (N.shiftl 0x100 0) (N.shiftl 0x100 1) (N.shiftl 0x100 2) (N.shiftl 0x100 3)
  (N.shiftl 0x100 4) (N.shiftl 0x100 5) false.
(** /repo/event_fsevents.go:10-21 with 24-44 *)
Definition fsevents : platform := Platform
  0x100 0x200 0x1000 0x800 0x200000 0x400000 false.
(** /repo/event_readdcw.go:17-29 *)
Definition readdcw : platform := Platform
  (N.shiftl 1 20) (N.shiftl 1 21) (N.shiftl 1 22) (N.shiftl 1 23)
  (N.shiftl 1 24) (N.shiftl 1 25) true.
(** /repo/event_stub.go:11-22 *)
Definition stub : platform := Platform
  (N.shiftl 1 0) (N.shiftl 1 1) (N.shiftl 1 2) (N.shiftl 1 3)
  (N.shiftl 1 4) (N.shiftl 1 5) false.

Definition platforms : list platform := [linux; kqueue; fen; fsevents; readdcw; stub].

(** ** Windows constants (/repo/event_readdcw.go:17-71; numeric values of the
    syscall constants are the Win32 ones, part of the trusted base). *)
Definition dirmarker : N := N.shiftl 1 26.                       (* :28 *)
Definition FileNotifyChangeFileName : N := 0x1.                  (* :37 *)
Definition FileNotifyChangeDirName : N := 0x2.                   (* :38 *)
Definition FileNotifyChangeAttributes : N := 0x4.                (* :39 *)
Definition FileNotifyChangeSize : N := 0x8.                      (* :40 *)
Definition FileNotifyChangeLastWrite : N := 0x10.                (* :41 *)
Definition FileNotifyChangeLastAccess : N := 0x20.               (* :42 *)
Definition FileNotifyChangeCreation : N := 0x40.                 (* :43 *)
Definition FileNotifyChangeSecurity : N := 0x100.                (* :44,54 *)
Definition fileNotifyChangeAll : N := 0x17f.                     (* :48 *)
Definition fileNotifyChangeModified : N :=
  fileNotifyChangeAll .&^ (FileNotifyChangeFileName .| FileNotifyChangeDirName). (* :49 *)
Definition FileActionAdded : N := N.shiftl 1 12.                 (* :64 *)
Definition FileActionRemoved : N := N.shiftl 2 12.               (* :65 *)
Definition FileActionModified : N := N.shiftl 3 14.              (* :66 *)
Definition FileActionRenamedOldName : N := N.shiftl 4 15.        (* :67 *)
Definition FileActionRenamedNewName : N := N.shiftl 5 16.        (* :68 *)
Definition fileActionAll : N := 0x7f000.                         (* :71 *)

(** /repo/event_readdcw.go:90-94 *)
Inductive ftype := fTypeUnknown | fTypeFile | fTypeDirectory.

(** [EventInfo] (/repo/event.go:108-112) together with [isDirer]
    (/repo/event.go:114-116): [ei_isdir = None] is [isDir()] returning an error.
    [ei_ftype] is the extra field of the windows event struct
    (/repo/event_readdcw.go:97-104); other platforms ignore it.
    [Sys()] is not modelled here (see the per-watcher files). *)
Record event_info := EI {
  ei_event : N;
  ei_path : str;
  ei_isdir : option bool;
  ei_ftype : ftype;
}.

(** ** Well-formedness of a platform: six distinct single bits below 2^32. *)
Definition consts (P : platform) : list N :=
  [Create P; Remove P; Write P; Rename P; recursive P; omit P].

Record platform_ok (P : platform) : Prop := {
  pok_single : ∀ x, x ∈ consts P → single_bit x;
  pok_u32 : ∀ x, x ∈ consts P → u32 x;
  pok_disj : ∀ i j x y, consts P !! i = Some x → consts P !! j = Some y → i ≠ j → disj_ev x y;
}.

(** An event set a user can pass: it contains none of the internal bits. *)
Definition user_ev (P : platform) (e : N) : Prop := disj_ev e (internal P).
