(** * Paths: string helpers of /repo/util.go.

    [sepc] is [os.PathSeparator] (/repo/util.go:15).  Go ints are modelled by
    [option nat] where the code uses -1 as "not found". *)
From Verif Require Import Base Event.

Section paths.
Context (sepc : ascii).

(** /repo/util.go:101-110 *)
Definition joinevents (P : platform) (events : list N) : N :=
  match events with
  | [] => All P
  | _ => foldl N.lor 0%N events
  end.

(** /repo/util.go:136-143 *)
Fixpoint indexSep (s : str) : option nat :=
  match s with
  | [] => None
  | c :: s' => if Ascii.eqb c sepc then Some O else S <$> indexSep s'
  end.

(** /repo/util.go:145-152: the loop over i = n-1, ..., 0; [n] is the loop's i+1. *)
Fixpoint lastIndexSepFrom (s : str) (n : nat) : option nat :=
  match n with
  | O => None
  | S i => match s !! i with
           | Some c => if Ascii.eqb c sepc then Some i else lastIndexSepFrom s i
           | None => lastIndexSepFrom s i
           end
  end.
Definition lastIndexSep (s : str) : option nat := lastIndexSepFrom s (length s).

(** /repo/util.go:112-117 *)
Definition split (s : str) : str * str :=
  match lastIndexSep s with
  | Some i => (take i s, drop (S i) s)
  | None => ([], s)
  end.

(** /repo/util.go:119-124 *)
Definition base (s : str) : str :=
  match lastIndexSep s with
  | Some i => drop (S i) s
  | None => s
  end.

(** /repo/util.go:128-134 *)
Definition indexrel (root name : str) : option nat :=
  let n := length root in
  let m := length name in
  if (n <? m) && bool_decide (take n name = root) &&
     (match name !! n with Some c => Ascii.eqb c sepc | None => false end)
  then Some (S n)
  else None.

(** /repo/util.go:51-54: the recursive suffix. *)
Definition dots : str := [ascii_of_nat 46; ascii_of_nat 46; ascii_of_nat 46].
Definition hasSuffix (s suf : str) : bool :=
  (length suf <=? length s) && bool_decide (drop (length s - length suf) s = suf).
Definition cutdots (path : str) : str * bool :=
  if hasSuffix path dots then (take (length path - 3) path, true) else (path, false).

End paths.
