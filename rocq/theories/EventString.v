(** * EventString: the text of an event (/repo/event.go:37-47). *)
From Verif Require Import Base Event.
From Verif Require Inotify Trigger Fsev.
Local Open Scope N_scope.

Notation names := (list (N * str)).
(** /repo/event.go:117-137 *)
Definition estr (P : platform) : names := [
  (Create P, b "notify.Create"); (Remove P, b "notify.Remove"); (Write P, b "notify.Write"); (Rename P, b "notify.Rename");
  (recursive P, b "recursive"); (omit P, b "omit")].
(** /repo/event_inotify.go:43-56 *)
Definition linux_names : names := [
  (Inotify.InAccess, b "notify.InAccess"); (Inotify.InModify, b "notify.InModify"); (Inotify.InAttrib, b "notify.InAttrib");
  (Inotify.InCloseWrite, b "notify.InCloseWrite"); (Inotify.InCloseNowrite, b "notify.InCloseNowrite");
  (Inotify.InOpen, b "notify.InOpen"); (Inotify.InMovedFrom, b "notify.InMovedFrom"); (Inotify.InMovedTo, b "notify.InMovedTo");
  (Inotify.InCreate, b "notify.InCreate"); (Inotify.InDelete, b "notify.InDelete");
  (Inotify.InDeleteSelf, b "notify.InDeleteSelf"); (Inotify.InMoveSelf, b "notify.InMoveSelf")].
(** /repo/event_kqueue.go:52-60 *)
Definition kqueue_names : names := [
  (Trigger.NoteDelete, b "notify.NoteDelete"); (Trigger.NoteWrite, b "notify.NoteWrite"); (Trigger.NoteExtend, b "notify.NoteExtend");
  (Trigger.NoteAttrib, b "notify.NoteAttrib"); (Trigger.NoteLink, b "notify.NoteLink"); (Trigger.NoteRename, b "notify.NoteRename");
  (Trigger.NoteRevoke, b "notify.NoteRevoke")].
(** /repo/event_fen.go:47-58 *)
Definition fen_names : names := [
  (Trigger.FileAccess, b "notify.FileAccess"); (Trigger.FileModified, b "notify.FileModified"); (Trigger.FileAttrib, b "notify.FileAttrib");
  (Trigger.FileDelete, b "notify.FileDelete"); (Trigger.FileRenameTo, b "notify.FileRenameTo");
  (Trigger.FileRenameFrom, b "notify.FileRenameFrom"); (Trigger.FileTrunc, b "notify.FileTrunc");
  (Trigger.FileNoFollow, b "notify.FileNoFollow"); (Trigger.Unmounted, b "notify.Unmounted"); (Trigger.MountedOver, b "notify.MountedOver")].
(** /repo/event_fsevents.go:46-62, the constants not used elsewhere as numbers *)
Definition fsevents_names : names := [
  (Fsev.FSEventsMustScanSubDirs, b "notify.FSEventsMustScanSubDirs"); (Fsev.FSEventsUserDropped, b "notify.FSEventsUserDropped");
  (Fsev.FSEventsKernelDropped, b "notify.FSEventsKernelDropped"); (Fsev.FSEventsEventIdsWrapped, b "notify.FSEventsEventIdsWrapped");
  (Fsev.FSEventsHistoryDone, b "notify.FSEventsHistoryDone"); (0x20, b "notify.FSEventsRootChanged");
  (0x40, b "notify.FSEventsMount"); (0x80, b "notify.FSEventsUnmount");
  (Fsev.FSEventsInodeMetaMod, b "notify.FSEventsInodeMetaMod"); (0x2000, b "notify.FSEventsFinderInfoMod");
  (0x4000, b "notify.FSEventsChangeOwner"); (0x8000, b "notify.FSEventsXattrMod");
  (0x10000, b "notify.FSEventsIsFile"); (Fsev.FSEventsIsDir, b "notify.FSEventsIsDir"); (0x40000, b "notify.FSEventsIsSymlink")].
(** /repo/event_readdcw.go:73-88 *)
Definition readdcw_names : names := [
  (FileNotifyChangeFileName, b "notify.FileNotifyChangeFileName"); (FileNotifyChangeDirName, b "notify.FileNotifyChangeDirName");
  (FileNotifyChangeAttributes, b "notify.FileNotifyChangeAttributes"); (FileNotifyChangeSize, b "notify.FileNotifyChangeSize");
  (FileNotifyChangeLastWrite, b "notify.FileNotifyChangeLastWrite"); (FileNotifyChangeLastAccess, b "notify.FileNotifyChangeLastAccess");
  (FileNotifyChangeCreation, b "notify.FileNotifyChangeCreation"); (FileNotifyChangeSecurity, b "notify.FileNotifyChangeSecurity");
  (FileActionAdded, b "notify.FileActionAdded"); (FileActionRemoved, b "notify.FileActionRemoved");
  (FileActionModified, b "notify.FileActionModified"); (FileActionRenamedOldName, b "notify.FileActionRenamedOldName");
  (FileActionRenamedNewName, b "notify.FileActionRenamedNewName")].
(** /repo/event_stub.go:24 *)
Definition stub_names : names := [].

(** strings.Join *)
Fixpoint join_with (sep : str) (l : list str) : str :=
  match l with
  | [] => []
  | [x] => x
  | x :: l => x ++ sep ++ join_with sep l
  end.
Definition bar : ascii := "|".
(** [o1] and [o2] are the two maps in the order in which they are visited. *)
Definition event_String (o1 o2 : names) (e : N) : str :=
  join_with [bar] (snd <$> filter (λ x, e .& x.1 = x.1) (o1 ++ o2)).
