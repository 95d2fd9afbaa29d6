(** * NonRec: models /repo/tree_nonrecursive.go (the tree used with watchers that
    are not natively recursive: inotify, kqueue, FEN).

    [t.rec] as a map key is [KRec]; the channel itself and the goroutines
    [dispatch]/[internal] as concurrent processes are in the Conc files: here one
    iteration of each is a function. *)
From Verif Require Import Base Event Watchpoint Paths Loop Node.

Local Open Scope N_scope.
(** /repo/tree_nonrecursive.go:132-157, the effect on the node's watchpoint. *)
Definition wdelmin (P : platform) (min : N) (wp : watchpoint) (c : key) (e : N) : watchpoint * eventDiff :=
  match wp !! KRec with
  | None => wdel P wp c e
  | Some old =>
      let '(wp, diff) := wdel P (<[KRec := min]> wp) c e in
      let old := old .&^ (diff.1 .&^ diff.2) in
      if old .| internal P =? internal P then
        let wp := delete KRec wp in
        let wp := match wp !! KNil with
                  | Some set => if (size wp =? 1)%nat && (set =? 0) then delete KNil wp else wp
                  | None => wp
                  end in
        (wp, diff)
      else
        let '(wp, _) := wadd P wp KRec (old .| Create P) in
        (wp, if is_none diff then diff
             else if (diff.2 .| Create P) =? diff.1 then none
             else (diff.1, diff.2 .| Create P))
  end.

Section nonrec.
Context (E : env).
Notation P := (e_plat E).
Local Open Scope N_scope.

(** What a call to Watch returns. *)
Inductive result := ROk | RErr | RFuel.

(** /repo/tree_nonrecursive.go:122-129 *)
Definition watchAdd (s : st) (h : path) (c : key) (e : N) : st * eventDiff :=
  if negb (e .& recursive P =? 0) then
    let '(s, diff) := node_wadd E s h KRec (e .| Create P .| omit P) in
    let '(s, _) := node_wadd E s h c e in
    (s, diff)
  else node_wadd E s h c e.

(** Writing [wp[c] &^= e] to a nil map panics; a node's map is never nil here
    ([walkWatchpoint] only calls it on non-empty maps). *)
Definition watchDelMin (min : N) (s : st) (h : path) (c : key) (e : N) : st * eventDiff :=
  let '(wp, d) := wdelmin P min (wp_at (st_tree s) h) c e in
  (with_tree s (set_wp (st_tree s) h wp), d).

(** /repo/tree_nonrecursive.go:187-205 *)
Definition nr_watch (s : st) (h : path) (c : key) (e : N) : st * result :=
  let '(s, diff) := node_wadd E s h c e in
  if is_none diff then (s, ROk)
  else if diff.2 =? 0 then (panicked s, ROk)
  else
    let nm := name_at (st_tree s) h in
    let '(s, ok) :=
      if diff.1 =? 0 then wcallf E s (WWatch nm diff.2)
      else wcallf E s (WRewatch nm diff.1 diff.2) in
    if ok then (s, ROk)
    else
      let wp := (wdel P (wp_at (st_tree s) h) c (diff_event diff)).1 in
      (with_tree s (set_wp (st_tree s) h wp), RErr).

(** /repo/tree_nonrecursive.go:207-221; the watcher's error is ignored. *)
Definition recFunc (e : N) (s : st) (h : path) : st * cb :=
  let '(s, diff) := node_wadd E s h KRec (e .| omit P .| Create P) in
  let nm := name_at (st_tree s) h in
  if is_none diff then (s, CNil)
  else if diff.2 =? 0 then (panicked s, CNil)
  else if diff.1 =? 0 then ((wcallf E s (WWatch nm diff.2)).1, CNil)
  else ((wcallf E s (WRewatch nm diff.1 diff.2)).1, CNil).

(** /repo/tree_nonrecursive.go:223-250 *)
Definition nr_watchrec (s : st) (h : path) (c : key) (e : N) : st * result :=
  let diff := dryAdd P (wp_at (st_tree s) h) KRec (e .| Create P) in
  if is_none diff then
    let '(s, _) := watchAdd s h c e in
    let '(s, _) := node_wadd E s h KRec (e .| omit P .| Create P) in
    (s, ROk)
  else if diff.2 =? 0 then (panicked s, ROk)
  else
    let '(s, r) := if diff.1 =? 0 then nd_adddir E (recFunc e) s h
                   else nd_walk E (recFunc e) s h in
    match r with
    | LDone => ((watchAdd s h c e).1, ROk)
    | LErr => (s, RErr)
    | LFuel => (s, RFuel)
    end.

(** /repo/tree_nonrecursive.go:177-184: Watch after argument checking and path
    cleaning (modelled in Clean.v).  [Add] failing would return [node{}], whose
    nil watchpoint panics on write. *)
Definition nr_Watch (s : st) (name : str) (isrec : bool) (c : key) (e : N) : st * result :=
  let '(t, h) := r_add (e_sep E) (e_vol E) (st_tree s) name in
  let s := with_tree s t in
  match h with
  | None => (panicked s, ROk)
  | Some h => if isrec then nr_watchrec s h c (e .| recursive P) else nr_watch s h c e
  end.

(** /repo/tree_nonrecursive.go:261-279: body of the walkWatchpoint loop. *)
Definition walkWatchpoint_step (fn : st → N → path → st * cb) (s : st) (x : N * path)
    : st * sres (N * path) :=
  let '(min, h) := x in
  let push (s : st) :=
    let '(s, ks) := range_children E s h in
    (s, Push ((λ k, (wget (wp_at (st_tree s) h) KRec, h ++ [k])) <$> ks)) in
  if (size (wp_at (st_tree s) h) =? 0)%nat then push s
  else match fn s min h with
       | (s, CSkip) => (s, Push [])
       | (s, CErr) => (s, Abort)
       | (s, CNil) => push s
       end.
(** /repo/tree_nonrecursive.go:254-281 *)
Definition walkWatchpoint (fn : st → N → path → st * cb) (s : st) (h : path) : st * lres :=
  loop (walkWatchpoint_step fn) (S (size (st_tree s))) s [(0, h)].

(** /repo/tree_nonrecursive.go:285-297 *)
Definition stop_fn (c : key) (s : st) (min : N) (h : path) : st * cb :=
  let '(s, diff) := watchDelMin min s h c all32 in
  let nm := name_at (st_tree s) h in
  if is_none diff then (s, CNil)
  else if diff.2 =? 0 then ((wcallf E s (WUnwatch nm)).1, CNil)
  else ((wcallf E s (WRewatch nm diff.1 diff.2)).1, CNil).
(** /repo/tree_nonrecursive.go:284-302 *)
Definition nr_Stop (s : st) (c : key) : st := (walkWatchpoint (stop_fn c) s []).1.

(** ** One iteration of [dispatch] (/repo/tree_nonrecursive.go:38-75) *)
(** State of the closure: sends attempted so far, isrec, nd. *)
Record dacc := DAcc { da_sends : list key; da_isrec : bool; da_nd : option path }.
Definition dispatch_at (t : tree) (ei : event_info) (extra : N) (h : path) : list key :=
  wtargets P (wp_at t h) (e_word E (length h) (map_to_list (wp_at t h))) ei extra.
(** /repo/tree_nonrecursive.go:42-50 *)
Definition dispatch_fn (t : tree) (ei : event_info) (a : dacc) (h : path) (isbase : bool) : dacc * cb :=
  let isrec := da_isrec a || isRecursive P (wp_at t h) in
  if isbase then (DAcc (da_sends a) isrec (Some h), CNil)
  else (DAcc (da_sends a ++ dispatch_at t ei (recursive P) h) isrec (da_nd a), CNil).
(** The channels to which sends are attempted, in order, and whether the event is
    then passed on to [internal]. *)
Definition nr_dispatch (t : tree) (ei : event_info) : list key * bool :=
  let '(dir, bs) := split (e_sep E) (ei_path ei) in
  match r_walkpath (e_sep E) (e_vol E) (dispatch_fn t ei) t (DAcc [] false None) dir with
  | (a, WPOk) =>
      let nd := default [] (da_nd a) in
      let sends := da_sends a ++ dispatch_at t ei 0 nd in
      let isrec := da_isrec a || isRecursive P (wp_at t nd) in
      let '(sends, isrec) :=
        match t !! (nd ++ [bs]) with
        | Some _ => (sends ++ dispatch_at t ei 0 (nd ++ [bs]),
                     isrec || isRecursive P (wp_at t (nd ++ [bs])))
        | None => (sends, isrec)
        end in
      let fwd := isrec && negb (ei_event ei .& (Create P .| Remove P) =? 0) &&
                 match ei_isdir ei with Some true => true | _ => false end in
      (sends, fwd)
  | (a, _) => (da_sends a, false)
  end.

(** ** One iteration of [internal] (/repo/tree_nonrecursive.go:80-119) *)
(** /repo/tree_nonrecursive.go:99-105 *)
Definition internal_fn (t : tree) (a : N * option path) (h : path) (_ : bool) : (N * option path) * cb :=
  let e := wget (wp_at t h) KRec in
  let eset := if negb (e =? 0) && (a.1 <? e) then e else a.1 in
  ((eset, Some h), CNil).
Definition nr_internal (s : st) (ei : event_info) : st :=
  let t := st_tree s in
  if ei_event ei =? Remove P then
    match r_get (e_sep E) (e_vol E) t (ei_path ei) with
    | None => s
    | Some h =>
        let '(s, _) := walkWatchpoint
          (λ s _ h, ((wcallf E s (WUnwatch (name_at (st_tree s) h))).1, CNil)) s h in
        with_tree s (r_del (e_sep E) (e_vol E) (st_tree s) (ei_path ei)).1
    end
  else
    let '((eset, nd), _) :=
      r_walkpath (e_sep E) (e_vol E) (internal_fn t) t (internal P, None) (ei_path ei) in
    if eset =? internal P then s
    else
      match nd with
      | None => s      (* not reached: eset only changes when a node was visited *)
      | Some nd =>
          let '(t, h) :=
            if decide (ei_path ei = name_at t nd) then (t, Some nd)
            else nd_add (e_sep E) t nd (ei_path ei) in
          let s := with_tree s t in
          match h with
          | None => panicked s      (* AddDir on node{}: Watch.Add on a nil map *)
          | Some h => (nd_adddir E (recFunc eset) s h).1
          end
      end.

(** The empty tree (/repo/tree_nonrecursive.go:24). *)
Definition init_st : st := St {[ [] := newnode [] ]} [] 0 false.
End nonrec.
