(** * Loop: the explicit-stack traversal pattern shared by node.Walk, node.AddDir
    (/repo/node.go:63-93, 144-167) and walkWatchpoint
    (/repo/tree_nonrecursive.go:254-281).

    Each pops one item, runs a body, and either stops with an error or pushes
    further items.  [fuel] bounds the number of pops; running out is reported as
    [LFuel] and proved impossible where the traversal is over a finite tree. *)
From Verif Require Import Base.

Inductive sres (X : Type) := Push (l : list X) | Abort.
Arguments Push {X} l.
Arguments Abort {X}.
Inductive lres := LDone | LErr | LFuel.

(** The stack is a list whose head is the top (Go: the end of the slice). *)
Fixpoint loop {S X : Type} (step : S → X → S * sres X) (fuel : nat) (s : S) (stack : list X)
    : S * lres :=
  match stack with
  | [] => (s, LDone)
  | x :: rest =>
      match fuel with
      | O => (s, LFuel)
      | Datatypes.S fuel =>
          match step s x with
          | (s', Push l) => loop step fuel s' (l ++ rest)
          | (s', Abort) => (s', LErr)
          end
      end
  end.
