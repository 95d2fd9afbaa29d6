(** * Watchpoint: models /repo/watchpoint.go, watchpoint_other.go, watchpoint_readdcw.go. *)
From Verif Require Import Base Event.
Local Open Scope N_scope.

(** Map keys of [watchpoint] (/repo/watchpoint.go:23).  A Go map key here is a
    channel; the model distinguishes the nil channel (aggregate), the tree's
    internal channel [t.rec], and user channels. *)
Inductive key := KNil | KRec | KUser (n : positive).
Global Instance key_eq_dec : EqDecision key.
Proof. solve_decision. Defined.
Global Instance key_countable : Countable key.
Proof.
  refine (inj_countable'
    (λ k, match k with KNil => inl false | KRec => inl true | KUser n => inr n end)
    (λ x, match x with inl false => KNil | inl true => KRec | inr n => KUser n end) _).
  by intros [].
Defined.

(** /repo/watchpoint.go:23 *)
Notation watchpoint := (gmap key N).
(** Go map read: the zero value for a missing key. *)
Definition wget (wp : watchpoint) (k : key) : N := default 0 (wp !! k).

(** /repo/watchpoint.go:10, 26 *)
Definition eventDiff : Type := N * N.
Definition none : eventDiff := (0, 0).
(** /repo/watchpoint.go:12-14 *)
Definition diff_event (d : eventDiff) : N := d.2 .&^ d.1.
Definition is_none (d : eventDiff) : bool := (d.1 =? 0) && (d.2 =? 0).

(** /repo/watchpoint.go:35-41 *)
Definition dryAdd (P : platform) (wp : watchpoint) (ch : key) (e : N) : eventDiff :=
  let e := e .&^ internal P in
  if wget wp ch .& e =? e then none
  else let total := wget wp ch .&^ internal P in (total, total .| e).

(** /repo/watchpoint.go:49-55, 72-78: strip internal bits, none if unchanged. *)
Definition strip_diff (P : platform) (d0 d1 : N) : eventDiff :=
  let d0 := d0 .&^ internal P in
  let d1 := d1 .&^ internal P in
  if d0 =? d1 then none else (d0, d1).

(** /repo/watchpoint.go:44-56 *)
Definition wadd (P : platform) (wp : watchpoint) (c : key) (e : N) : watchpoint * eventDiff :=
  let wp1 := <[c := wget wp c .| e]> wp in
  let d0 := wget wp1 KNil in
  let d1 := d0 .| e in
  let wp2 := <[KNil := d1 .&^ omit P]> wp1 in
  (wp2, strip_diff P d0 d1).

(** /repo/watchpoint.go:67-69: the join over all remaining entries.  Go ranges
    over the map in an unspecified order; [join_perm] (WatchpointFacts) shows the
    order does not matter. *)
Definition join (l : list N) : N := foldr N.lor 0 l.
Definition joinall (wp : watchpoint) : N := join (map_to_list wp).*2.

(** /repo/watchpoint.go:58-79 *)
Definition wdel (P : platform) (wp : watchpoint) (c : key) (e : N) : watchpoint * eventDiff :=
  let wp1 := <[c := wget wp c .&^ e]> wp in
  let wp2 := if wget wp1 c =? 0 then delete c wp1 else wp1 in
  let d0 := wget wp2 KNil in
  let wp3 := delete KNil wp2 in
  if bool_decide (wp3 = ∅)
  then (wp3, strip_diff P d0 0)
  else let d1 := joinall wp3 in
       (<[KNil := d1 .&^ omit P]> wp3, strip_diff P d0 d1).

(** /repo/watchpoint.go:97-99 *)
Definition wtotal (P : platform) (wp : watchpoint) : N := wget wp KNil .&^ internal P.
(** /repo/watchpoint.go:101-103 *)
Definition isRecursive (P : platform) (wp : watchpoint) : bool :=
  negb (wget wp KNil .& recursive P =? 0).

(** /repo/watchpoint_other.go:12-14 and /repo/watchpoint_readdcw.go:14-29.  The
    windows type assertion to *event always succeeds for events produced by
    the watcher, which is the only producer. *)
Definition eventmask (P : platform) (ei : event_info) (extra : N) : N :=
  let e := ei_event ei .| extra in
  if windows P then
    if negb (e .& fileActionAll =? 0) then
      let e := match ei_ftype ei with
               | fTypeFile => e .| FileNotifyChangeFileName
               | fTypeDirectory => e .| FileNotifyChangeDirName
               | fTypeUnknown => e .| fileNotifyChangeModified
               end in
      e .&^ fileActionAll
    else e
  else e.

(** /repo/watchpoint_other.go:22-24 and /repo/watchpoint_readdcw.go:37-39 *)
Definition matches (P : platform) (set event : N) : bool :=
  (N.lxor (set .& omit P) (event .& omit P) =? 0) &&
  if windows P
  then (set .& event =? event) || negb (set .& fileNotifyChangeModified .& event =? 0)
  else set .& event =? event.

(** /repo/watchpoint.go:81-95: the channels to which one [Dispatch] call attempts
    a non-blocking send, in the order the map is ranged over.  [ord] is that
    order: any enumeration of the map. *)
Definition wtargets (P : platform) (wp : watchpoint) (ord : list (key * N))
    (ei : event_info) (extra : N) : list key :=
  let e := eventmask P ei extra in
  if negb (matches P (wget wp KNil) e) then []
  else omap (λ '(ch, eset),
    if bool_decide (ch ≠ KNil) && matches P eset e then Some ch else None) ord.

(** ** Channels (Go language semantics; not code of /repo).  A channel is a
    bounded buffer; receivers already blocked on it take an element directly. *)
Record chan := Chan {
  ch_cap : nat;
  ch_buf : list event_info;
  ch_waiting : nat;                 (* goroutines blocked in a receive *)
  ch_handed : list event_info;      (* elements handed to blocked receivers *)
}.
(** [select { case ch <- ei: default: }] (/repo/watchpoint.go:88-92).  The result
    tells whether the element was sent; the statement never blocks. *)
Definition try_send (ch : chan) (ei : event_info) : chan * bool :=
  match ch_waiting ch with
  | S n => (Chan (ch_cap ch) (ch_buf ch) n (ch_handed ch ++ [ei]), true)
  | O => if (length (ch_buf ch) <? ch_cap ch)%nat
         then (Chan (ch_cap ch) (ch_buf ch ++ [ei]) O (ch_handed ch), true)
         else (ch, false)
  end.
Notation chans := (gmap key chan).
Definition send_one (ei : event_info) (cs : chans) (k : key) : chans :=
  match cs !! k with
  | Some ch => <[k := (try_send ch ei).1]> cs
  | None => cs
  end.
(** /repo/watchpoint.go:86-94 *)
Definition wdispatch (P : platform) (wp : watchpoint) (ord : list (key * N))
    (ei : event_info) (extra : N) (cs : chans) : chans :=
  foldl (send_one ei) cs (wtargets P wp ord ei extra).

(** Receiving (Go semantics, user side): take the oldest buffered element, or
    block, i.e. become a waiting receiver. *)
Definition recv (ch : chan) : chan * option event_info :=
  match ch_buf ch with
  | x :: l => (Chan (ch_cap ch) l (ch_waiting ch) (ch_handed ch), Some x)
  | [] => (Chan (ch_cap ch) [] (S (ch_waiting ch)) (ch_handed ch), None)
  end.
Global Arguments wadd : simpl never.
Global Arguments wdel : simpl never.
Global Arguments wget : simpl never.
Global Arguments dryAdd : simpl never.
Global Arguments matches : simpl never.
Global Arguments eventmask : simpl never.
