(** * Clean: [cleanpath] and [canonical] of /repo/util.go on unix.

    The filesystem is a finite map from physical paths (lists of entry names, no
    symlink on the way) to what is found there; it does not change during one call.
    The functions of Go's path/filepath and the system calls used are modelled from
    their documentation. *)
From Verif Require Import Base Event Paths Loop.

Notation slash := ("/"%char : ascii).
Notation path := (list str).

(** ** path/filepath *)
(** The pieces between separators; [splits "/a/b" = ["";"a";"b"]]. *)
Fixpoint splits (s : str) : list str :=
  match s with
  | [] => [[]]
  | c :: s =>
      if Ascii.eqb c slash then [] :: splits s
      else match splits s with
           | x :: l => (c :: x) :: l
           | [] => [[c]]
           end
  end.
Fixpoint joins (l : list str) : str :=
  match l with
  | [] => []
  | [x] => x
  | x :: l => x ++ slash :: joins l
  end.
Definition dot : str := b ".".
Definition dotdot : str := b "..".
Definition isabs (s : str) : bool :=
  match s with c :: _ => Ascii.eqb c slash | [] => false end.
(** filepath.Clean: drop empty and "." pieces, let ".." cancel the piece before it,
    drop ".." at the root.  The stack has its top first. *)
Definition clean_step (rooted : bool) (st : list str) (c : str) : list str :=
  if decide (c = [] ∨ c = dot) then st
  else if decide (c = dotdot) then
    match st with
    | [] => if rooted then [] else [dotdot]
    | x :: st' => if decide (x = dotdot) then dotdot :: st else st'
    end
  else c :: st.
Definition clean_comps (rooted : bool) (l : list str) : list str :=
  reverse (foldl (clean_step rooted) [] l).
Definition clean (s : str) : str :=
  match clean_comps (isabs s) (splits s) with
  | [] => if isabs s then [slash] else dot
  | l => if isabs s then slash :: joins l else joins l
  end.
(** filepath.Abs; [cwd] is the result of os.Getwd ([None] = error). *)
Definition abs (cwd : option str) (p : str) : option str :=
  if isabs p then Some (clean p) else (λ w, clean (w ++ slash :: p)) <$> cwd.

(** ** The filesystem and path resolution by the kernel *)
Inductive kind := KDir | KFile | KLink (target : str).
Notation fsys := (gmap path kind).

(** Looking up one piece in the directory [d].  Simplification: an empty piece
    (doubled or trailing separator) is accepted after a regular file too. *)
Definition look (fs : fsys) (d : path) (c : str) : option kind :=
  match fs !! d with
  | Some KDir => if decide (c = [] ∨ c = dot ∨ c = dotdot) then Some KDir else fs !! (d ++ [c])
  | Some KFile => if decide (c = []) then Some KFile else None
  | _ => None
  end.
Definition go (d : path) (c : str) : path :=
  if decide (c = [] ∨ c = dot) then d else if decide (c = dotdot) then removelast d else d ++ [c].
(** Resolving the pieces [cs] from directory [d]; [follow] continues after a link. *)
Fixpoint kwalk (fs : fsys) (follow : path → list str → option path) (d : path) (cs : list str) : option path :=
  match cs with
  | [] => Some d
  | c :: cs =>
      match look fs d c with
      | None => None
      | Some (KLink s) => follow (if isabs s then [] else d) (splits s ++ cs)
      | Some _ => kwalk fs follow (go d c) cs
      end
  end.
(** ... following at most [n] symlinks. *)
Fixpoint kres (fs : fsys) (n : nat) : path → list str → option path :=
  match n with
  | O => kwalk fs (λ _ _, None)
  | S n => kwalk fs (kres fs n)
  end.
(** os.Lstat: every piece but the last is resolved (Linux follows at most 40 links);
    what the last one is, a link included. *)
Definition lstat (fs : fsys) (name : str) : option kind :=
  let cs := splits name in
  match kres fs 40 [] (removelast cs) with
  | Some d => look fs d (List.last cs [])
  | None => None
  end.
(** os.Readlink *)
Definition readlink (fs : fsys) (name : str) : option str :=
  match lstat fs name with Some (KLink s) => Some s | _ => None end.

(** ** /repo/util.go:67-99 *)
Inductive cerr := EAbs | EDepth | EStat.
(** Loop state: [p], [i], [depth] and the number of Lstat calls made (ghost). *)
Record cst := CSt { c_p : str; c_i : nat; c_depth : nat; c_calls : nat }.
Inductive cres := CNext (x : cst) | COk (q : str) | CFail (e : cerr).
Definition canon_step (fs : fsys) (x : cst) : cres :=
  let '(CSt p i depth n) := x in
  if negb (i <? length p) then COk (clean p)                        (* :73, :99 *)
  else if 128 <? depth then CFail EDepth                             (* :74-76 *)
  else
    let j := i in                                                    (* :77-81 *)
    let i := match indexSep slash (drop i p) with None => length p | Some k => i + k end in
    match lstat fs (take i p) with                                   (* :82-85 *)
    | None => CFail EStat
    | Some (KLink _) =>
        match readlink fs (take i p) with                            (* :87-90 *)
        | None => CFail EStat
        | Some s =>
            let p' := if isabs s then slash :: s ++ drop i p         (* :91-95 *)
                      else take j p ++ s ++ drop i p in
            CNext (CSt p' (1 + 1) (depth + 1) (S n))                 (* :96, then i+1 of :73 *)
        end
    | Some _ => CNext (CSt p (i + 1) (depth + 1) (S n))
    end.
(** [fuel] only bounds the model's recursion, see C15_terminates; [None] is "not
    finished yet". *)
Fixpoint canon_loop (fs : fsys) (fuel : nat) (x : cst) : option (str + cerr) :=
  match fuel with
  | O => None
  | S fuel =>
      match canon_step fs x with
      | COk q => Some (inl q)
      | CFail e => Some (inr e)
      | CNext x => canon_loop fs fuel x
      end
  end.
Definition canonical (fs : fsys) (fuel : nat) (cwd : option str) (p : str) : option (str + cerr) :=
  match abs cwd p with
  | None => Some (inr EAbs)
  | Some p => canon_loop fs fuel (CSt p 1 1 0)
  end.
(** /repo/util.go:50-62 *)
Definition cleanpath (fs : fsys) (cwd : option str) (p : str) : (str * bool) + cerr :=
  let '(p, isrec) := cutdots p in
  match abs cwd p with
  | None => inr EAbs
  | Some p =>
      match canonical fs 130 cwd p with
      | Some (inl q) => inl (q, isrec)
      | Some (inr e) => inr e
      | None => inr EDepth      (* not reached: C15_terminates *)
      end
  end.
