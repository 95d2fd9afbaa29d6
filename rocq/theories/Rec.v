(** * Rec: models /repo/tree_recursive.go (the tree used with watchers that are
    natively recursive: FSEvents on macOS, ReadDirectoryChangesW on Windows).

    [nd.Child[""]], where a node keeps its inactive watchpoint, is the entry with
    key [] below it; [Node [] None] there is the zero [node{}].  Every function runs
    under the tree's lock, so Watch, Stop and one dispatched event are one step each. *)
From Verif Require Import Base Event Watchpoint Paths Loop Node NonRec.
Local Open Scope N_scope.

Section rec.
Context (E : env).
Notation P := (e_plat E).

(** [nd.Child[""]] of the node at [h]. *)
Definition inact (h : path) : path := h ++ [[]].

(** Deleting from the watchpoint of a node; a nil map panics on write
    (/repo/watchpoint.go:58-79). *)
Definition node_wdel (s : st) (h : path) (c : key) (e : N) : st * eventDiff :=
  let '(wp, d) := wdel P (wp_at (st_tree s) h) c e in
  let s' := with_tree s (set_wp (st_tree s) h wp) in
  match st_tree s !! h ≫= nwatch with
  | Some _ => (s', d)
  | None => (panicked s', d)
  end.
(** [if diff[0] == diff[1] { return none }] *)
Definition norm (d0 d1 : N) : eventDiff := if d0 =? d1 then none else (d0, d1).

(** /repo/tree_recursive.go:10-21 *)
Definition rwatchAdd (s : st) (h : path) (c : key) (e : N) : st * eventDiff :=
  let '(s, diff) := node_wadd E s h c e in
  let wp := wp_at (st_tree s) (inact h) in
  if (size wp =? 0)%nat then (s, diff)
  else (s, norm (diff.1 .| wtotal P wp) (diff.2 .| wtotal P wp)).

(** /repo/tree_recursive.go:24-38 *)
Definition watchAddInactive (s : st) (h : path) (c : key) (e : N) : st * eventDiff :=
  let s := match st_tree s !! inact h ≫= nwatch with
           | Some _ => s
           | None => with_tree s (<[inact h := Node [] (Some ∅)]> (st_tree s))
           end in
  let '(s, diff) := node_wadd E s (inact h) c e in
  let e := wtotal P (wp_at (st_tree s) h) in
  (s, norm (diff.1 .| e) (diff.2 .| e)).

(** /repo/tree_recursive.go:41-57.  The order in which the two maps are ranged over
    is arbitrary; if [dst] has no inactive watchpoint by the second loop, [wpdst] is
    a nil map and adding to it panics. *)
Definition watchCopy (s : st) (src dst : path) : st :=
  let s := foldl (λ s '(c, e), if decide (c = KNil) then s else (watchAddInactive s dst c e).1)
             (ticked s) (e_word E (st_tick s) (map_to_list (wp_at (st_tree s) src))) in
  foldl (λ s '(c, e), if decide (c = KNil) then s else (node_wadd E s (inact dst) c e).1)
    (ticked s) (e_word E (st_tick s) (map_to_list (wp_at (st_tree s) (inact src)))).

(** /repo/tree_recursive.go:60-73 *)
Definition rwatchDel (s : st) (h : path) (c : key) (e : N) : st * eventDiff :=
  let '(s, diff) := node_wdel s h c e in
  if (size (wp_at (st_tree s) (inact h)) =? 0)%nat then (s, diff)
  else
    let '(s, di) := node_wdel s (inact h) c e in
    let e := wtotal P (wp_at (st_tree s) (inact h)) in
    (s, norm (diff.1 .| (di.1 .| e)) (diff.2 .| (di.2 .| e))).

(** /repo/tree_recursive.go:76-82 *)
Definition watchTotal (t : tree) (h : path) : N :=
  let e := wtotal P (wp_at t h) in
  if (size (wp_at t (inact h)) =? 0)%nat then e else e .| wtotal P (wp_at t (inact h)).

(** /repo/tree_recursive.go:85-95 *)
Definition watchIsRecursive (t : tree) (h : path) : bool :=
  isRecursive P (wp_at t h) || negb (size (wp_at t (inact h)) =? 0)%nat.

(** ** One iteration of [dispatch] (/repo/tree_recursive.go:124-153): the channels to
    which sends are attempted. *)
Definition rdispatch_fn (t : tree) (ei : event_info) (a : list key * option path) (h : path) (isbase : bool)
    : (list key * option path) * cb :=
  if isbase then ((a.1, Some h), CNil)
  else ((a.1 ++ dispatch_at E t ei (recursive P) h, a.2), CNil).
Definition rec_dispatch (t : tree) (ei : event_info) : list key :=
  let '(dir, bs) := split (e_sep E) (ei_path ei) in
  match r_walkpath (e_sep E) (e_vol E) (rdispatch_fn t ei) t ([], None) dir with
  | (a, WPOk) =>
      let nd := default [] a.2 in
      a.1 ++ dispatch_at E t ei 0 nd ++
      match t !! (nd ++ [bs]) with
      | Some _ => dispatch_at E t ei 0 (nd ++ [bs])
      | None => []
      end
  | (a, _) => a.1
  end.

(** ** Watch (/repo/tree_recursive.go:156-299) after argument checking and path cleaning *)
(** /repo/tree_recursive.go:179-186 *)
Definition find_fn (t : tree) (a : option (path * bool)) (h : path) (isbase : bool) : option (path * bool) * cb :=
  if negb (watchTotal t h =? 0) then (Some (h, isbase), CSkip) else (a, CNil).
Definition find_parent (t : tree) (name : str) : option (path * bool) :=
  match r_walkpath (e_sep E) (e_vol E) (find_fn t) t None name with
  | (a, WPOk) => a
  | (_, _) => None
  end.
(** /repo/tree_recursive.go:188-223: a watch at or above the path covers it already. *)
Definition case1 (s : st) (cur parent : path) (self isrec : bool) (c : key) (e : N) : st * result :=
  let '(s, diff) := if self then rwatchAdd s cur c e else watchAddInactive s parent c e in
  if is_none diff then ((if self then s else (rwatchAdd s cur c e).1), ROk)
  else if diff.1 =? 0 then (panicked s, ROk)
  else
    let nm := name_at (st_tree s) parent in
    let '(s, ok) :=
      if isrec || watchIsRecursive (st_tree s) parent
      then wcallf E s (WRecRewatch nm nm diff.1 diff.2)
      else wcallf E s (WRewatch nm diff.1 diff.2) in
    if ok then ((rwatchAdd s cur c e).1, ROk)
    else ((rwatchDel s parent c (diff_event diff)).1, RErr).

(** /repo/tree_recursive.go:227-235, in the body of Walk (/repo/node.go:144-167):
    collect the topmost nodes with a watchpoint. *)
Definition collect_step (x : st * list path) (h : path) : (st * list path) * sres path :=
  let '(s, l) := x in
  if (size (wp_at (st_tree s) h) =? 0)%nat then
    let '(s, ks) := range_children E s h in
    ((s, l), Push ((λ k, h ++ [k]) <$> filter (λ k, k ≠ []) ks))
  else ((s, l ++ [h]), Push []).
Definition collect (s : st) (h : path) : st * list path :=
  (loop collect_step (S (size (st_tree s))) (s, []) [h]).1.
(** /repo/tree_recursive.go:243-248, /repo/tree_recursive.go:257-262: the aggregate entry of [cur.Watch] stays. *)
Definition clean2 (s : st) (cur : path) (c : key) : st :=
  let t := <[inact cur := Node [] None]> (st_tree s) in
  with_tree s (set_wp t cur (delete c (wp_at t cur))).
(** /repo/tree_recursive.go:238-249 *)
Definition case2_one (s : st) (cur child : path) (c : key) (e : N) : st * result :=
  let s := (rwatchAdd s cur c e).1 in
  let s := watchCopy s child cur in
  let '(s, ok) := wcallf E s (WRecRewatch (name_at (st_tree s) child) (name_at (st_tree s) cur)
                    (watchTotal (st_tree s) child) (watchTotal (st_tree s) cur)) in
  if ok then (s, ROk) else (clean2 s cur c, RErr).
(** /repo/tree_recursive.go:263-277 *)
Definition unwatch_children (s : st) (l : list path) : st * result :=
  foldl (λ '(s, r) k,
    let nm := name_at (st_tree s) k in
    let '(s, ok) := if watchIsRecursive (st_tree s) k then wcallf E s (WRecUnwatch nm)
                    else wcallf E s (WUnwatch nm) in
    (s, if ok then r else RErr)) (s, ROk) l.
(** /repo/tree_recursive.go:250-278 *)
Definition case2_many (s : st) (cur : path) (l : list path) (c : key) (e : N) : st * result :=
  let s := (rwatchAdd s cur c e).1 in
  let s := foldl (λ s k, watchCopy s k cur) s l in
  let '(s, ok) := wcallf E s (WRecWatch (name_at (st_tree s) cur) (watchTotal (st_tree s) cur)) in
  if ok then unwatch_children s l else (clean2 s cur c, RErr).
(** /repo/tree_recursive.go:279-298 *)
Definition case3 (s : st) (cur : path) (isrec : bool) (c : key) (e : N) : st * result :=
  let '(s, diff) := rwatchAdd s cur c e in
  if is_none diff then (panicked s, ROk)
  else if diff.1 =? 0 then
    let nm := name_at (st_tree s) cur in
    let '(s, ok) := if isrec then wcallf E s (WRecWatch nm diff.2) else wcallf E s (WWatch nm diff.2) in
    if ok then (s, ROk) else ((rwatchDel s cur c (diff_event diff)).1, RErr)
  else (panicked s, ROk).
(** /repo/tree_recursive.go:168-299 *)
Definition rec_Watch (s : st) (name : str) (isrec : bool) (c : key) (e : N) : st * result :=
  let e := if isrec then e .| recursive P else e in
  let found := find_parent (st_tree s) name in
  let '(t, cur) := r_add (e_sep E) (e_vol E) (st_tree s) name in
  let s := with_tree s t in
  match cur with
  | None => (panicked s, ROk)
  | Some cur =>
      match found with
      | Some (parent, self) => case1 s cur parent self isrec c e
      | None =>
          let '(s, l) := collect s cur in
          match l with
          | [] => case3 s cur isrec c e
          | [child] => case2_one s cur child c e
          | l => case2_many s cur l c e
          end
      end
  end.

(** ** Stop (/repo/tree_recursive.go:306-347) *)
(** /repo/tree_recursive.go:308-339 *)
Definition rstop_fn (c : key) (s : st) (h : path) : st * cb :=
  let '(s, diff) := rwatchDel s h c all32 in
  let nm := name_at (st_tree s) h in
  if is_none diff && (watchTotal (st_tree s) h =? 0) then (s, CNil)
  else
    let s :=
      if is_none diff then s
      else if diff.2 =? 0 then
        if watchIsRecursive (st_tree s) h then (wcallf E s (WRecUnwatch nm)).1
        else (wcallf E s (WUnwatch nm)).1
      else
        if watchIsRecursive (st_tree s) h then (wcallf E s (WRecRewatch nm nm diff.1 diff.2)).1
        else (wcallf E s (WRewatch nm diff.1 diff.2)).1 in
    ((nd_walk E (λ s h, ((rwatchDel s h c all32).1, CNil)) s h).1, CSkip).
Definition rec_Stop (s : st) (c : key) : st := (nd_walk E (rstop_fn c) s []).1.
End rec.
