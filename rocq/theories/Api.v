(** * Api: the calls a program makes, with the arguments it gives.

    /repo/notify.go:63-74 pass their arguments to the tree made by /repo/tree.go:15-22;
    the beginning of Watch is the same text in both trees. *)
From Verif Require Import Base Event Watchpoint Paths PathsFacts Loop Node NonRec Rec Clean SpecTree SpecNonRec SpecRec.
Local Open Scope N_scope.

(** What a tree does once the arguments are checked: Watch, Stop, and the processing
    of a directory event. *)
Record api := MkApi {
  a_watch : env → st → str → bool → key → N → st * result;
  a_stop : env → st → key → st;
  a_dir : env → st → N → path → st;
}.
(** /repo/tree_nonrecursive.go:177-184,284-302,80-119 *)
Definition nr_api : api :=
  MkApi nr_Watch nr_Stop (λ E s ev p, nr_internal E s (EI ev (render slash p) (Some true) fTypeDirectory)).
(** /repo/tree_recursive.go:168-299,306-347 *)
Definition rec_api : api := MkApi rec_Watch rec_Stop (λ _ s _ _, s).

(** How a call ends: it panics, it returns the error of [cleanpath], or it returns
    what the tree returns ([ROk] is nil). *)
Inductive outcome := OPanic | OBadPath (e : cerr) | ORet (r : result).

(** Watch; a channel is [None] if it is nil; [fs] and [cwd] are the filesystem and the
    working directory during the call (/repo/tree_nonrecursive.go:165-185,
    /repo/tree_recursive.go:156-167).  Simplification: the filesystem seen by
    [cleanpath] and the one read by the tree later in the call are not related. *)
Definition api_Watch (A : api) (E : env) (fs : fsys) (cwd : option str) (s : st)
    (p : str) (c : option positive) (events : list N) : st * outcome :=
  match c with
  | None => (s, OPanic)
  | Some n =>
      match events with
      | [] => (s, ORet ROk)
      | _ =>
          match cleanpath fs cwd p with
          | inr e => (s, OBadPath e)
          | inl (q, isrec) =>
              let '(s, r) := a_watch A E s q isrec (KUser n) (joinevents (e_plat E) events) in
              (s, ORet r)
          end
      end
  end.
(** Stop, for a channel that is not nil (/repo/notify.go:72-74). *)
Definition api_Stop (A : api) (E : env) (s : st) (n : positive) : st := a_stop A E s (KUser n).
