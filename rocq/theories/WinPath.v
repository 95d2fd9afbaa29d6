(** * WinPath: [cleanpath] and [canonical] of /repo/util.go on Windows.

    The functions of Go's path/filepath are modelled from their documentation and their
    text for Windows; the system calls are oracles. *)
From Verif Require Import Base Event Paths PathsFacts Loop Clean.

Notation bslash := ("\"%char : ascii).
Notation colon := (":"%char : ascii).

(** ** path/filepath *)
(** os.IsPathSeparator *)
Definition wsep (c : ascii) : bool := Ascii.eqb c bslash || Ascii.eqb c slash.
(** The pieces between separators. *)
Fixpoint wsplits (s : str) : list str :=
  match s with
  | [] => [[]]
  | c :: s =>
      if wsep c then [] :: wsplits s
      else match wsplits s with
           | x :: l => (c :: x) :: l
           | [] => [[c]]
           end
  end.
Fixpoint wjoins (l : list str) : str :=
  match l with
  | [] => []
  | [x] => x
  | x :: l => x ++ bslash :: wjoins l
  end.
Definition fromslash (s : str) : str := (λ c, if Ascii.eqb c slash then bslash else c) <$> s.
Definition letter (c : ascii) : bool :=
  let n := nat_of_ascii c in ((65 <=? n) && (n <=? 90)) || ((97 <=? n) && (n <=? 122)).
(** A piece that may name a host or a share: not empty, not beginning with a dot. *)
Definition wordy (s : str) : bool := match s with [] => false | c :: _ => negb (Ascii.eqb c ".") end.
(** filepath.VolumeName: a drive C: or \\host\share.  Simplification: the device paths
    \\.\x, which recent versions treat as volumes, have none. *)
Definition uncvol (s : str) : str :=
  match s with
  | c1 :: c2 :: s' =>
      if wsep c1 && wsep c2 then
        match wsplits s' with
        | h :: x :: _ => if wordy h && wordy x then take (2 + length h + 1 + length x) s else []
        | _ => []
        end
      else []
  | _ => []
  end.
Definition volname (s : str) : str :=
  match s with
  | c :: d :: _ => if letter c && Ascii.eqb d colon then [c; d] else uncvol s
  | _ => []
  end.
Definition isunc (v : str) : bool := match v with c :: _ => wsep c | [] => false end.
(** filepath.IsAbs *)
Definition wisabs (s : str) : bool :=
  match volname s with
  | [] => false
  | v => if isunc v then true else match drop (length v) s with c :: _ => wsep c | [] => false end
  end.
(** The first piece is never removed again on the way through the pieces. *)
Definition keeps_first (l : list str) : bool :=
  forallb (λ k, match clean_comps false (take k l) with [] => false | _ => true end) (seq 1 (length l)).
(** filepath.Clean; a name with a colon that has become the first piece of a relative path
    is protected by .\ (in versions before 1.20 it is not). *)
Definition wclean (s : str) : str :=
  let v := volname s in
  match drop (length v) s with
  | [] => if isunc v then fromslash s else s ++ dot
  | (c :: _) as r =>
      let l := clean_comps (wsep c) (wsplits r) in
      fromslash v ++
      if wsep c then bslash :: wjoins l
      else match l with
           | [] => dot
           | x :: _ =>
               if bool_decide (v = []) && bool_decide (colon ∈ x) && negb (keeps_first (wsplits r))
               then dot ++ bslash :: wjoins l else wjoins l
           end
  end.
(** filepath.Join of two names that are not empty, the first not a bare drive. *)
Definition winjoin (d n : str) : str := wclean (d ++ bslash :: n).

(** ** The operating system *)
(** What Lstat finds: something other than a symlink, or a symlink with what Readlink
    answers ([None] = error). *)
Inductive wkind := WPlain | WLink (target : option str).
(** GetFullPathName, used by filepath.Abs, and Lstat; [None] = error. *)
Record winos := WinOS { w_full : str → option str; w_lstat : str → option wkind }.
(** filepath.Abs *)
Definition wabs (o : winos) (p : str) : option str := wclean <$> w_full o p.

(** ** /repo/util.go:67-99, for any filepath.IsAbs, filepath.Clean and Lstat *)
Section gen.
Context (isabs : str → bool) (clean : str → str) (lstat : str → option wkind).
Definition gcanon_step (x : cst) : cres :=
  let '(CSt p i depth n) := x in
  if negb (i <? length p) then COk (clean p)                        (* :73, :99 *)
  else if 128 <? depth then CFail EDepth                             (* :74-76 *)
  else
    let j := i in                                                    (* :77-81; '/' on every platform *)
    let i := match indexSep slash (drop i p) with None => length p | Some k => i + k end in
    match lstat (take i p) with                                      (* :82-85 *)
    | None => CFail EStat
    | Some (WLink t) =>
        match t with                                                 (* :87-90 *)
        | None => CFail EStat
        | Some s =>
            let p' := if isabs s then slash :: s ++ drop i p         (* :91-95 *)
                      else take j p ++ s ++ drop i p in
            CNext (CSt p' (1 + 1) (depth + 1) (S n))                 (* :96, then i+1 of :73 *)
        end
    | Some WPlain => CNext (CSt p (i + 1) (depth + 1) (S n))
    end.
Fixpoint gcanon_loop (fuel : nat) (x : cst) : option (str + cerr) :=
  match fuel with
  | O => None
  | S fuel =>
      match gcanon_step x with
      | COk q => Some (inl q)
      | CFail e => Some (inr e)
      | CNext x => gcanon_loop fuel x
      end
  end.
End gen.
Definition wcanonical (o : winos) (fuel : nat) (p : str) : option (str + cerr) :=
  match wabs o p with
  | None => Some (inr EAbs)
  | Some p => gcanon_loop wisabs wclean (w_lstat o) fuel (CSt p 1 1 0)
  end.
(** /repo/util.go:50-62 *)
Definition wcleanpath (o : winos) (p : str) : (str * bool) + cerr :=
  let '(p, isrec) := cutdots p in
  match wabs o p with
  | None => inr EAbs
  | Some p =>
      match wcanonical o 130 p with
      | Some (inl q) => inl (q, isrec)
      | Some (inr e) => inr e
      | None => inr EDepth      (* not reached: C78_terminates *)
      end
  end.
