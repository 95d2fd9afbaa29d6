(** * SpecTree: vocabulary for the path-tree properties (C11-C14) *)
From Verif Require Import Base Event Watchpoint Paths PathsFacts Node.

Section spec.
Context (sepc : ascii).

(** A node is identified by the list of path components leading to it.  With
    volumes ([w = true], windows) the first component is the volume name and is
    spelled without a leading separator: ["C:"; "a"] is C:\a; without volumes
    ["a"; "b"] is /a/b. *)
Definition nameof (w : bool) (p : path) : str :=
  if w then match p with [] => [] | v :: cs => v ++ render sepc cs end
  else render sepc p.

(** [name] is the text of the path with components [p] below the root, and
    [vol] (filepath.VolumeName) agrees.  As in a path returned by filepath.Clean
    no component is empty, except that the root directory itself (/ or C:\) has
    the single component "". *)
Definition spells (vol : str → str) (w : bool) (p : path) (name : str) : Prop :=
  name = nameof w p ∧ [] ∉ removelast p ∧
  if w then ∃ v cs, p = v :: cs ∧ v ≠ [] ∧ cs ≠ [] ∧ comps_ok sepc cs ∧ vol name = v
  else p ≠ [] ∧ comps_ok sepc p ∧ vol name = [].

(** A tree as built by Add and AddDir: root present, parents present, every node
    carries the text of its own path (below the node of the root directory /
    the code gives wrong names, see C29). *)
Record tree_wf (w : bool) (t : tree) : Prop := {
  twf_root : is_Some (t !! []);
  twf_closed : ∀ p k, is_Some (t !! (p ++ [k])) → is_Some (t !! p);
  twf_name : ∀ p nd, t !! p = Some nd → [] ∉ p → nname nd = nameof w p;
}.

(** ** Path walks *)
(** The nodes on the way to [p], the last one marked; with volumes the walk
    starts at the volume. *)
Definition chain (w : bool) (p : path) : list (path * bool) :=
  let k := if w then 1 else 0 in
  (λ n, (take n p, bool_decide (n = length p))) <$> seq k (S (length p) - k).
(** Visit a list of nodes until one is missing or the callback stops. *)
Fixpoint along {A} (fn : A → path → bool → A * cb) (t : tree) (a : A) (l : list (path * bool)) : A * wpres :=
  match l with
  | [] => (a, WPOk)
  | (q, isbase) :: l =>
      match t !! q with
      | None => (a, WPNotExist)
      | Some _ =>
          match fn a q isbase with
          | (a, CNil) => along fn t a l
          | (a, CSkip) => (a, WPOk)
          | (a, CErr) => (a, WPErr)
          end
      end
  end.
End spec.

(** ** Tree walks *)
(** [calls fn s l s']: calling [fn] on the nodes of [l] in turn, with the given
    results, leads from [s] to [s']; between calls nothing changes but the
    iteration counter. *)
Inductive calls (fn : st → path → st * cb) : st → list (path * cb) → st → Prop :=
  | calls_nil s : calls fn s [] s
  | calls_cons s p s1 r s2 l s' :
      fn s p = (s1, r) →
      st_tree s2 = st_tree s1 → st_log s2 = st_log s1 → st_panic s2 = st_panic s1 →
      calls fn s2 l s' → calls fn s ((p, r) :: l) s'.
(** [p] is a proper ancestor of [q]. *)
Definition above (p q : path) : Prop := p `prefix_of` q ∧ p ≠ q.
