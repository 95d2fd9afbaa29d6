(** * Node: the path tree of /repo/node.go.

    Go's [node] (/repo/node.go:28-32) is a struct of a name and two maps; the maps
    are shared references.  The model is a flat heap: a finite map from the list
    of child keys leading to a node (its handle) to the node's name and
    watchpoint.  [Child[k]] of the node at [h] is the entry at [h ++ [k]].
    [nwatch = None] is a nil map (the zero value [node{}]). *)
From Verif Require Import Base Event Watchpoint Paths Loop.

Notation path := (list str).
(** /repo/node.go:28-32 *)
Record node := Node { nname : str; nwatch : option watchpoint }.
Notation tree := (gmap path node).

(** /repo/node.go:34-40 *)
Definition newnode (name : str) : node := Node name (Some ∅).

(** Field reads through a handle; a missing entry reads as [node{}]. *)
Definition name_at (t : tree) (h : path) : str :=
  match t !! h with Some nd => nname nd | None => [] end.
Definition wp_at (t : tree) (h : path) : watchpoint :=
  match t !! h with Some nd => default ∅ (nwatch nd) | None => ∅ end.
Definition set_wp (t : tree) (h : path) (wp : watchpoint) : tree :=
  match t !! h with Some nd => <[h := Node (nname nd) (Some wp)]> t | None => t end.

(** [strip p q = Some r] iff [q = p ++ r]. *)
Fixpoint strip (p q : path) : option path :=
  match p, q with
  | [], _ => Some q
  | x :: p, y :: q => if decide (x = y) then strip p q else None
  | _ :: _, [] => None
  end.
(** The key under which [q] hangs directly below [p]. *)
Definition child_key (p q : path) : option str :=
  match strip p q with Some [k] => Some k | _ => None end.
(** The keys of the [Child] map of the node at [p]. *)
Definition children (t : tree) (p : path) : list str :=
  omap (λ kv, child_key p kv.1) (map_to_list t).
(** Removing an entry of a [Child] map makes its whole subtree unreachable. *)
Definition delete_sub (t : tree) (q : path) : tree :=
  filter (λ kv, strip q kv.1 = None) t.

(** /repo/node.go:42-49 *)
Definition addchild (t : tree) (h : path) (name bs : str) : tree * path :=
  let q := h ++ [bs] in
  match t !! q with
  | Some _ => (t, q)
  | None => (<[q := newnode name]> t, q)
  end.

Section node.
Context (sepc : ascii).

(** /repo/node.go:56-60; [fuel] bounds the loop, [length name] always suffices. *)
Fixpoint add_loop (fuel : nat) (t : tree) (h : path) (name : str) (i : nat) : tree * path :=
  match indexSep sepc (drop i name) with
  | None => addchild t h name (drop i name)
  | Some j =>
      let '(t', h') := addchild t h (take (i + j) name) (take j (drop i name)) in
      match fuel with
      | O => (t', h')
      | S fuel => add_loop fuel t' h' name (i + j + 1)
      end
  end.
(** /repo/node.go:51-61; [None] is the returned zero [node{}]. *)
Definition nd_add (t : tree) (h : path) (name : str) : tree * option path :=
  match indexrel sepc (name_at t h) name with
  | None => (t, None)
  | Some i => let '(t', h') := add_loop (length name) t h name i in (t', Some h')
  end.

(** /repo/node.go:101-110 *)
Fixpoint get_loop (fuel : nat) (t : tree) (h : path) (name : str) (i : nat) : option path :=
  match indexSep sepc (drop i name) with
  | None =>
      let q := h ++ [drop i name] in
      match t !! q with Some _ => Some q | None => None end
  | Some j =>
      let q := h ++ [take j (drop i name)] in
      match t !! q with
      | None => None
      | Some _ =>
          match fuel with
          | O => None
          | S fuel => get_loop fuel t q name (i + j + 1)
          end
      end
  end.
(** /repo/node.go:95-111; [None] is the not-exist error. *)
Definition nd_get (t : tree) (h : path) (name : str) : option path :=
  match indexrel sepc (name_at t h) name with
  | None => None
  | Some i => get_loop (length name) t h name i
  end.

(** /repo/node.go:133: len(nd.Watch) > 1 || len(nd.Child) != 0 of a map entry,
    a missing entry reading as the zero node. *)
Definition busy (t : tree) (q : path) : bool :=
  match t !! q with
  | Some nd => (1 <? size (default ∅ (nwatch nd))) || negb (length (children t q) =? 0)
  | None => false
  end.
(** /repo/node.go:131-140: [stack] is the handle stack, top first. *)
Fixpoint prune (t : tree) (stack : list path) (key : str) : tree :=
  match stack with
  | [] => t
  | h :: rest =>
      if busy t (h ++ [key]) then t
      else prune (delete_sub t (h ++ [key])) rest (base sepc (name_at t h))
  end.
(** /repo/node.go:118-141; the boolean is "no error". *)
Fixpoint del_loop (fuel : nat) (t : tree) (stack : list path) (h : path) (name : str) (i : nat)
    : tree * bool :=
  match indexSep sepc (drop i name) with
  | None =>
      let k := drop i name in
      match t !! (h ++ [k]) with
      | None => (t, false)
      | Some _ => (prune (delete_sub t (h ++ [k])) stack k, true)
      end
  | Some j =>
      let q := h ++ [take j (drop i name)] in
      match t !! q with
      | None => (t, false)
      | Some _ =>
          match fuel with
          | O => (t, false)
          | S fuel => del_loop fuel t (q :: stack) q name (i + j + 1)
          end
      end
  end.
(** /repo/node.go:113-142 *)
Definition nd_del (t : tree) (h : path) (name : str) : tree * bool :=
  match indexrel sepc (name_at t h) name with
  | None => (t, false)
  | Some i => del_loop (length name) t [h] h name i
  end.

(** Result of a callback: nil, errSkip or another error (/repo/node.go:14). *)
Inductive cb := CNil | CSkip | CErr.
Inductive wpres := WPOk | WPNotExist | WPErr.

(** /repo/node.go:174-203.  The callbacks passed to WalkPath in /repo read the
    tree but never change it, so the tree is fixed during the walk. *)
Fixpoint walkpath_loop {A} (fn : A → path → bool → A * cb) (fuel : nat) (t : tree)
    (a : A) (h : path) (name : str) (i : nat) : A * wpres :=
  match indexSep sepc (drop i name) with
  | None =>
      match fn a h false with
      | (a, CSkip) => (a, WPOk)
      | (a, CErr) => (a, WPErr)
      | (a, CNil) =>
          let q := h ++ [drop i name] in
          match t !! q with
          | None => (a, WPNotExist)
          | Some _ =>
              match fn a q true with
              | (a, CErr) => (a, WPErr)
              | (a, _) => (a, WPOk)
              end
          end
      end
  | Some j =>
      match fn a h false with
      | (a, CSkip) => (a, WPOk)
      | (a, CErr) => (a, WPErr)
      | (a, CNil) =>
          let q := h ++ [take j (drop i name)] in
          match t !! q with
          | None => (a, WPNotExist)
          | Some _ =>
              match fuel with
              | O => (a, WPNotExist)
              | S fuel => walkpath_loop fn fuel t a q name (i + j + 1)
              end
          end
      end
  end.
(** /repo/node.go:169-204 *)
Definition nd_walkpath {A} (fn : A → path → bool → A * cb) (t : tree) (a : A) (h : path) (name : str)
    : A * wpres :=
  match indexrel sepc (name_at t h) name with
  | None => (a, WPNotExist)
  | Some i => walkpath_loop fn (length name) t a h name i
  end.

(** ** Root (/repo/node.go:206-275).  [vol] is filepath.VolumeName: the empty
    string for every path on unix. *)
Context (vol : str → str).

(** /repo/node.go:210-219 *)
Definition r_addroot (t : tree) (name : str) : tree * path :=
  match vol name with
  | [] => (t, [])
  | v => match t !! [v] with
         | Some _ => (t, [v])
         | None => addchild t [] v v
         end
  end.
(** /repo/node.go:221-230 *)
Definition r_root (t : tree) (name : str) : option path :=
  match vol name with
  | [] => Some []
  | v => match t !! [v] with Some _ => Some [v] | None => None end
  end.
(** /repo/node.go:232-234 *)
Definition r_add (t : tree) (name : str) : tree * option path :=
  let '(t', h) := r_addroot t name in nd_add t' h name.
(** /repo/node.go:240-246 *)
Definition r_del (t : tree) (name : str) : tree * bool :=
  match r_root t name with
  | None => (t, false)
  | Some h => nd_del t h name
  end.
(** /repo/node.go:248-259 *)
Definition r_get (t : tree) (name : str) : option path :=
  match r_root t name with
  | None => None
  | Some h => if decide (name_at t h = name) then Some h else nd_get t h name
  end.
(** /repo/node.go:269-275 *)
Definition r_walkpath {A} (fn : A → path → bool → A * cb) (t : tree) (a : A) (name : str) : A * wpres :=
  match r_root t name with
  | None => (a, WPNotExist)
  | Some h => nd_walkpath fn t a h name
  end.
End node.

(** ** Traversals with side effects *)

(** Calls a tree makes to its watcher (/repo/watcher.go). *)
Inductive wcall :=
  | WWatch (p : str) (e : N)
  | WUnwatch (p : str)
  | WRewatch (p : str) (old new : N)
  | WRecWatch (p : str) (e : N)
  | WRecUnwatch (p : str)
  | WRecRewatch (oldp newp : str) (old new : N).
(** Every call made so far with its outcome (true = nil error), newest last. *)
Notation wlog := (list (wcall * bool)).

(** A directory entry as seen by os.ReadDir: name, mode&ModeDir, mode&ModeSymlink. *)
Record dirent := Dirent { de_name : str; de_dir : bool; de_symlink : bool }.

(** The state of a tree between (and during) calls: the nodes, the log of
    watcher calls, a counter that makes the oracles below time-dependent, and
    whether a Go panic has been hit (an explicit [panic] statement or a write to a
    nil map; the model keeps computing but the flag stays set). *)
Record st := St { st_tree : tree; st_log : wlog; st_tick : nat; st_panic : bool }.

(** Everything outside the library, as oracles that may answer differently at
    every moment: the watcher ([e_W log call] is whether the call succeeds), Go's
    map iteration order (of Child maps and of watchpoints), and the filesystem seen
    by os.ReadDir ([None] = error).  [e_fuel] bounds AddDir's loop. *)
Record env := Env {
  e_plat : platform;
  e_sep : ascii;
  e_vol : str → str;
  e_W : wlog → wcall → bool;
  e_ord : nat → list str → list str;
  e_word : nat → list (key * N) → list (key * N);
  e_readdir : nat → str → option (list dirent);
  e_fuel : nat;
}.

Definition with_tree (s : st) (t : tree) : st := St t (st_log s) (st_tick s) (st_panic s).
Definition ticked (s : st) : st := St (st_tree s) (st_log s) (S (st_tick s)) (st_panic s).
Definition panicked (s : st) : st := St (st_tree s) (st_log s) (st_tick s) true.
(** One call to the watcher. *)
Definition wcallf (E : env) (s : st) (c : wcall) : st * bool :=
  let ok := e_W E (st_log s) c in
  (St (st_tree s) (st_log s ++ [(c, ok)]) (st_tick s) (st_panic s), ok).
(** One [range] over a Child map. *)
Definition range_children (E : env) (s : st) (p : path) : st * list str :=
  (ticked s, e_ord E (st_tick s) (children (st_tree s) p)).

(** /repo/node.go:144-167: the body of the Walk loop. *)
Definition walk_step (E : env) (fn : st → path → st * cb) (s : st) (h : path) : st * sres path :=
  match fn s h with
  | (s, CSkip) => (s, Push [])
  | (s, CErr) => (s, Abort)
  | (s, CNil) =>
      let '(s, ks) := range_children E s h in
      (s, Push ((λ k, h ++ [k]) <$> filter (λ k, k ≠ []) ks))
  end.
(** /repo/node.go:144-167; fuel: one pop per node. *)
Definition nd_walk (E : env) (fn : st → path → st * cb) (s : st) (h : path) : st * lres :=
  loop (walk_step E fn) (S (size (st_tree s))) s [h].

(** filepath.Join(dir, name) for a clean directory path and an entry name as
    returned by ReadDir (non-empty, no separator, not "." or ".."). *)
Definition joinpath (sepc : ascii) (dir name : str) : str :=
  if decide (dir = [sepc]) then sepc :: name else dir ++ sepc :: name.

(** /repo/node.go:85-90: add a child for every real sub-directory. *)
Definition adddir_children (E : env) (t : tree) (h : path) (ents : list dirent) : tree * list path :=
  foldl (λ '(t, l) de,
    if de_dir de && negb (de_symlink de) then
      let dir := name_at t h in
      let name := joinpath (e_sep E) dir (de_name de) in
      let '(t, q) := addchild t h name (drop (length dir + 1) name) in
      (t, l ++ [q])
    else (t, l)) (t, []) ents.
(** /repo/node.go:66-91: the body of the AddDir loop.  A ReadDir error aborts. *)
Definition adddir_step (E : env) (fn : st → path → st * cb) (s : st) (h : path) : st * sres path :=
  match fn s h with
  | (s, CSkip) => (s, Push [])
  | (s, CErr) => (s, Abort)
  | (s, CNil) =>
      let ents := e_readdir E (st_tick s) (name_at (st_tree s) h) in
      let s := ticked s in
      match ents with
      | None => (s, Abort)
      | Some ents =>
          let '(t, qs) := adddir_children E (st_tree s) h ents in
          (with_tree s t, Push (reverse qs))
      end
  end.
(** /repo/node.go:63-93 *)
Definition nd_adddir (E : env) (fn : st → path → st * cb) (s : st) (h : path) : st * lres :=
  loop (adddir_step E fn) (e_fuel E) s [h].

(** The oracles are the Go runtime's and the OS's: iteration orders enumerate
    the map, ReadDir names are proper names. *)
Definition dirent_ok (sepc : ascii) (de : dirent) : Prop :=
  de_name de ≠ [] ∧ sepc ∉ de_name de.
Record env_ok (E : env) : Prop := {
  eo_ord : ∀ n l, e_ord E n l ≡ₚ l;
  eo_word : ∀ n l, e_word E n l ≡ₚ l;
  eo_readdir : ∀ n d l, e_readdir E n d = Some l → Forall (dirent_ok (e_sep E)) l;
}.

(** Adding to the watchpoint of a node; a nil map panics on write. *)
Definition node_wadd (E : env) (s : st) (h : path) (c : key) (e : N) : st * eventDiff :=
  let '(wp, d) := wadd (e_plat E) (wp_at (st_tree s) h) c e in
  let s' := with_tree s (set_wp (st_tree s) h wp) in
  match st_tree s !! h ≫= nwatch with
  | Some _ => (s', d)
  | None => (panicked s', d)
  end.
