(** * FenGen: the watcher for FEN (/repo/watcher_trigger.go with /repo/watcher_fen.go) over any
    native layer.  The functions are those of Trigger.v, which has the layer built in as one
    association per name; Prop_Fen.v proves that with this layer they are the same. *)
From Verif Require Import Base Event Paths Clean Trigger.
Local Open Scope N_scope.

(** pthLkp and the structures (/repo/watcher_trigger.go:88-99), and the native layer's state *)
Record gst (S : Type) := GS { g_heap : gmap nat tw; g_path : gmap str nat; g_next : nat; g_nat : S }.
Arguments GS {S}. Arguments g_heap {S}. Arguments g_path {S}. Arguments g_next {S}. Arguments g_nat {S}.

Section gen.
Context {S : Type}.
(** portAssociate and portDissociate for a path (and a mask) *)
Context (nw : S → answers → str → N → S * res) (nu : S → answers → str → S * res).
Implicit Types g : gst S.
Local Notation P := fen.

Definition g_set_nat g (n : S) : gst S := GS (g_heap g) (g_path g) (g_next g) n.
(** /repo/watcher_fen.go:107-109 *)
Definition g_Watch g (A : answers) (i : nat) (e : N) : gst S * res :=
  match g_heap g !! i with
  | None => (g, RErr)
  | Some w => let '(n, r) := nw (g_nat g) A (tw_p w) e in (g_set_nat g n, r)
  end.
(** /repo/watcher_fen.go:102-104 *)
Definition g_Unwatch g (A : answers) (i : nat) : gst S * res :=
  match g_heap g !! i with
  | None => (g, RErr)
  | Some w => let '(n, r) := nu (g_nat g) A (tw_p w) in (g_set_nat g n, r)
  end.
(** /repo/watcher_fen.go:51-53 *)
Definition g_NewWatched g (p : str) (dir : bool) : gst S * nat :=
  let i := g_next g in (GS (<[i := TW p dir 0 0 0]> (g_heap g)) (g_path g) (Datatypes.S i) (g_nat g), i).
(** /repo/watcher_fen.go:56-58 *)
Definition g_Record g (i : nat) : gst S :=
  match g_heap g !! i with
  | None => g
  | Some w => GS (g_heap g) (<[tw_p w := i]> (g_path g)) (g_next g) (g_nat g)
  end.
(** /repo/watcher_fen.go:61-63 *)
Definition g_Del g (i : nat) : gst S :=
  match g_heap g !! i with
  | None => g
  | Some w => GS (g_heap g) (delete (tw_p w) (g_path g)) (g_next g) (g_nat g)
  end.
Definition g_upd g (i : nat) (f : tw → tw) : gst S :=
  match g_heap g !! i with
  | Some w => GS (<[i := f w]> (g_heap g)) (g_path g) (g_next g) (g_nat g)
  | None => g
  end.
Definition g_events g (i : nat) : N := match g_heap g !! i with Some w => tw_e w | None => 0 end.
(** /repo/watcher_trigger.go:161-172 *)
Definition g_single_do g (A : answers) (i : nat) (e : N) (m : mode) (dir : bool) : gst S * res :=
  let g := g_upd g i (add_role m e) in
  g_Watch g A i (fen_encode (g_events g i) dir).
(** /repo/watcher_trigger.go:151-178; NewWatched never fails (/repo/watcher_fen.go:51-53). *)
Definition g_singlewatch g (A : answers) (p : str) (e : N) (m : mode) (dir : bool) : gst S * res :=
  match g_path g !! p with
  | Some i => let '(g, r) := g_single_do g A i e m dir in (g, match r with ROk => RAlready | _ => r end)
  | None =>
      let '(g, i) := g_NewWatched g p dir in
      let '(g, r) := g_single_do g A i e m dir in
      match r with ROk => (g_Record g i, ROk) | _ => (g, r) end
  end.
(** /repo/watcher_trigger.go:368-397 *)
Definition g_singleunwatch g (A : answers) (p : str) (m : mode) : gst S * res :=
  match g_path g !! p with
  | None => (g, RNotWatched)
  | Some i =>
      let g := g_upd g i (clear_role m) in
      match g_Unwatch g A i with
      | (g, ROk) =>
          match g_heap g !! i with
          | None => (g, RErr)
          | Some w =>
              if nonzero (tw_e w) then
                let mod' := if nonzero (tw_eNonDir w) then MNDir else MDir in
                let '(g, r) := g_singlewatch g A p (tw_e w) mod' (tw_dir w) in
                (g, match r with RAlready => ROk | _ => r end)
              else (g_Del g i, ROk)
          end
      | (g, r) => (g, r)
      end
  end.
(** /repo/watcher_trigger.go:221-237 *)
Fixpoint g_walk_fold (f : gst S → finfo → gst S * res) g (ls : list finfo) : gst S * res :=
  match ls with
  | [] => (g, ROk)
  | fi :: ls => match f g fi with (g, ROk) => g_walk_fold f g ls | (g, r) => (g, r) end
  end.
Definition g_walk g (A : answers) (p : str) (f : gst S → finfo → gst S * res) : gst S * res :=
  match a_ls A p with None => (g, RErr) | Some ls => g_walk_fold f g ls end.
(** /repo/watcher_trigger.go:197-218 *)
Definition g_watch_entry (A : answers) (p : str) (e : N) g (fi : finfo) : gst S * res :=
  let '(g, r) := g_singlewatch g A (join p (fi_name fi)) e MNDir (fi_dir fi) in
  (g, match r with RAlready => ROk | _ => r end).
Definition g_watch g (A : answers) (p : str) (e : N) (dir : bool) : gst S * res :=
  match g_singlewatch g A p e MDir dir with
  | (g, (ROk | RAlready)) => if dir then g_walk g A p (g_watch_entry A p e) else (g, ROk)
  | (g, r) => (g, r)
  end.
(** /repo/watcher_trigger.go:239-253 *)
Definition g_unwatch_entry (A : answers) (p : str) g (fi : finfo) : gst S * res :=
  let '(g, r) := g_singleunwatch g A (join p (fi_name fi)) MNDir in
  (g, match r with RNotWatched => ROk | _ => r end).
Definition g_unwatch g (A : answers) (p : str) (dir : bool) : gst S * res :=
  let '(g, r) := if dir then g_walk g A p (g_unwatch_entry A p) else (g, ROk) in
  match r with ROk => g_singleunwatch g A p MDir | _ => (g, r) end.
(** /repo/watcher_trigger.go:256-295 *)
Definition g_trg_Watch g (st : option bool) (A : answers) (p : str) (e : N) : gst S * res :=
  match st with None => (g, RErr) | Some d => g_watch g A p e d end.
Definition g_trg_Unwatch g (st : option bool) (A : answers) (p : str) : gst S * res :=
  match st with None => (g, RErr) | Some d => g_unwatch g A p d end.
Definition g_trg_Rewatch g (st : option bool) (A A' : answers) (p : str) (e : N) : gst S * res :=
  match st with
  | None => (g, RErr)
  | Some d => match g_unwatch g A p d with
              | (g, ROk) => ((g_watch g A' p e d).1, ROk)
              | (g, _) => (g, ROk)
              end
  end.
(** /repo/watcher_trigger.go:315-329 *)
Definition g_moved1 (A : answers) (w : tw) (e : N) (acc : gst S * list tevent) (k : str) : gst S * list tevent :=
  let '(g, evn) := acc in
  if has_prefix (tw_p w ++ [slash]) k then
    let g := (g_singleunwatch g A k MBoth).1 in
    (g, if nonzero (tw_e w .& (FileRenameFrom .| Rename P)) then evn ++ [TE k (tw_e w .& e .&^ Write P .&^ FileModified) (tw_dir w)] else evn)
  else (g, evn).
(** /repo/watcher_trigger.go:335-348 *)
Definition g_rescan1 (A : answers) (w : tw) (acc : gst S * list tevent) (fi : finfo) : gst S * list tevent :=
  let '(g, evn) := acc in
  let p := join (tw_p w) (fi_name fi) in
  let '(g, r) := g_singlewatch g A p (tw_eDir w) MNDir (fi_dir fi) in
  (g, if bool_decide (r = RNotExist) && nonzero (tw_eDir w .& Remove P) then evn ++ [TE p (Remove P) (fi_dir fi)]
      else match r with
           | RAlready => evn
           | ROk => if nonzero (tw_eDir w .& Create P) then evn ++ [TE p (Create P) (fi_dir fi)] else evn
           | _ => evn
           end).
(** /repo/watcher_trigger.go:302-357 *)
Definition g_dir g (A : answers) (ord : list str) (i : nat) (w : tw) (e ge : N) : gst S * list tevent :=
  if nonzero (ge .& (FileRenameFrom .| FileDelete)) then
    let evn := [TE (tw_p w) (e .&^ Write P .&^ FileModified) true] in
    let '(g, evn) := if nonzero (ge .& FileRenameFrom) then foldl (g_moved1 A w e) (g, evn) ord else (g, evn) in
    (g_Del g i, evn)
  else if nonzero (ge .& FileModified) then
    match a_ls A (tw_p w) with
    | None => (g, [])
    | Some ls => foldl (g_rescan1 A w) (g, []) ls
    end
  else (g, []).
(** /repo/watcher_trigger.go:419-454; the event is about the name [p]. *)
Definition g_process g (st : option bool) (A : answers) (ord : list str) (p : str) (ge : N) : gst S * list tevent :=
  match g_path g !! p with
  | None => (g, [])
  | Some i =>
      match g_heap g !! i with
      | None => (g, [])
      | Some w =>
          let e := decode fen_nat2not ge (tw_e w) in
          let g :=
            if ge .& (FileRenameFrom .| FileDelete) =? 0 then
              match st with
              | None => g
              | Some d => match g_Watch g A i (fen_encode (tw_e w) d) with
                          | (g, ROk) => g
                          | (g, _) => g_Del g i
                          end
              end
            else g in
          if (e =? 0) && (negb (tw_dir w) || (ge .& FileModified =? 0)) then (g, [])
          else
            let '(g, evn) := if tw_dir w then g_dir g A ord i w e ge else (g, [TE (tw_p w) e (tw_dir w)]) in
            (if nonzero (ge .& (FileRenameFrom .| FileDelete)) then g_Del g i else g, evn)
      end
  end.
End gen.
