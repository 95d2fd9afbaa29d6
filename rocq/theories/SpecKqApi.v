(** * SpecKqApi: the library on BSD and Solaris, from the arguments of Watch to kqueue or FEN *)
From Verif Require Import Base Event Watchpoint Paths PathsFacts Loop Node NonRec Clean SpecClean SpecTree Api SpecApi SpecNrApi
  Trigger SpecTrigger SpecKq.
Local Open Scope N_scope.

(** The calls on a changing filesystem with directories [D], and the watcher after what
    the tree asked of it and what the OS reported in between; [L], [r] as in [kdrives]. *)
Record kq_api (T : trig) (ty : str → bool) (tr : atrace) (D : gset path) (s : st) (L : str → Prop) (r : roles) (ts : tstate) : Prop := {
  ka_calls : lexec (t_plat T) tr D s;
  ka_accepted : not_refused tr;
  ka_drives : kdrives T ty (st_log s) L r ts;
}.
(** Channel [n] asked for all of the event [g] for the entries of directory [d]: by Watch
    calls with paths of [d], or by one with a path "x..." of a directory above. *)
Definition asks_in (P : platform) (tr : atrace) (D : gset path) (n : positive) (d : path) (g : N) : Prop :=
  subscribed_all P tr n d g ∨ (d ∈ D ∧ ∃ a, a `prefix_of` d ∧ watches_below P tr n a g).
