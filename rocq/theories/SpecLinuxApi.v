(** * SpecLinuxApi: the library on Linux, from the arguments of Watch to the kernel *)
From Verif Require Import Base Event Watchpoint Paths PathsFacts Loop Node NonRec Rec Clean SpecClean SpecTree SpecNonRec SpecNonRecOS SpecOS
  SpecRec Api SpecApi Inotify SpecInotify InotifyTab Prop_Linux.
From Verif Require Export SpecNrApi.
Local Open Scope N_scope.

Notation atouched := (SpecNrApi.atouched linux).
Notation lexec := (SpecNrApi.lexec linux).
Notation watches_below := (SpecNrApi.watches_below linux).
(** The calls, and the inotify watcher after what the tree asked of it. *)
Record linux_api (tr : atrace) (D : gset path) (s : st) (itr : itrace) (si : ist) : Prop := {
  la_calls : lexec tr D s;
  la_accepted : not_refused tr;
  la_drives : drives (st_log s) itr;
  la_exec : iexec itr si;
  la_orderly : orderly itr;
}.
