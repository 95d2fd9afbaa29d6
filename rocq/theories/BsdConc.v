(** * BsdConc: the goroutines of the tree and the monitor of the kqueue watcher together.

    The steps are those of TreeConc.v (callers, dispatcher, goroutines of events, the
    goroutine for directory events) and of KqMon.v (kernel, monitor, the watcher's calls), put
    together where they meet: the monitor sends the events of one note one after the other,
    without the watcher's lock, before it asks for the next note
    (/repo/watcher_trigger.go:144-148,399-416), and each is received by the channel of the
    dispatcher if there is room (/repo/tree.go:7,16,21); whoever holds the write lock of the
    tree makes the calls of the watcher (/repo/tree_nonrecursive.go:87-93,110,177-221,285-297).
    The tree's own step stands at the end of what is done under the lock, the calls of the
    watcher in their order before it: nobody else sees the tree meanwhile, but kernel and
    monitor run on between the calls.  Simplified: as in LinuxConc.v the calls of the watcher
    that a recursive Watch, Stop or the goroutine for directory events makes do not fail. *)
From Verif Require Import Base Event Watchpoint Paths PathsFacts Loop Node NonRec SpecNonRec SpecNonRecOS Clean Trigger SpecTrigger SpecKq KqMon
  TreeConc SpecTreeConc Prop_TreeConc.
From Verif Require LinuxConc.
Local Open Scope N_scope.
Notation writing := LinuxConc.writing.
Notation outer := LinuxConc.outer.

(** A step of the tree's goroutines alone, of the watcher and the kernel, the sending of an
    event. *)
Inductive blab := BTree (l : lab) | BKq (l : klab) | BSend (e : tevent).
Definition btrees (ls : list blab) : list lab :=
  omap (λ l, match l with BTree l => Some l | BSend e => Some (LReport (te_info e)) | BKq _ => None end) ls.
Definition bkqs (ls : list blab) : list klab := omap (λ l, match l with BKq l => Some l | _ => None end) ls.

(** A call as the tree has noted it and as the watcher has seen it:
    /repo/tree_nonrecursive.go:187-221, /repo/watcher_trigger.go:256-295. *)
Definition made (x : wcall * bool) (l : tlabel) : Prop :=
  match x, l with
  | (WWatch p e, ok), TWatch _ _ p' e' r => p = p' ∧ e = e' ∧ ok = bool_decide (r = ROk)
  | (WUnwatch p, ok), TUnwatch _ _ p' r => p = p' ∧ ok = bool_decide (r = ROk)
  | (WRewatch p _ e, ok), TRewatch _ _ _ p' e' r => p = p' ∧ e = e' ∧ ok = bool_decide (r = ROk)
  | _, _ => False
  end.

(** The tree's goroutines (/repo/tree_nonrecursive.go:10-32); the watcher, the kernel and the monitor; what the monitor has
    still to send of the last note (/repo/watcher_trigger.go:144-148); the calls of the watcher so far. *)
Record bst := BS { b_c : cfg; b_k : kst; b_out : list tevent; b_calls : list tlabel }.
Definition binit : bst := BS cfg0 kinit [] [].
Notation cstep := (TreeConc.step (nonrec_ops slash) (nenv kqueue slash) (ncall_ok kqueue slash) (λ _, True)).

(** /repo/tree_nonrecursive.go:34-302, /repo/watcher_trigger.go:399-420 *)
Inductive bstep : bst → blab → bst → Prop :=
  | b_tree c k out cs l c' : cstep c l c' → outer l → bstep (BS c k out cs) (BTree l) (BS c' k out cs)
  (* the end of what a call of Watch or Stop does under the lock *)
  | b_crit c k out cs i o E t r :
      c_thr c !! i = Some (TCall o WHold) → nenv kqueue slash E → os_good E o →
      nstep slash E (c_st c) o = (t, r) → st_panic t = false → Forall2 made (st_log t) cs →
      bstep (BS c k out cs) (BTree (LCrit i o r)) (BS (set_st (set_thr c i (TCall o (WLeft r))) t) k out cs)
  (* the same of the processing of a directory event *)
  | b_int c k out cs ei E t :
      c_int c = IProc ei WHold → nenv kqueue slash E → reliable E →
      nr_internal E (c_st c) ei = t → st_panic t = false → Forall2 made (st_log t) cs →
      bstep (BS c k out cs) (BTree (LInt ei)) (BS (set_st (set_int c (IProc ei (WLeft NonRec.ROk))) t) k out cs)
  | b_call c k out cs l k' : kstep k (KCall l) k' → writing c → bstep (BS c k out cs) (BKq (KCall l)) (BS c k' out (cs ++ [l]))
  | b_note c k out cs fd ge q k' : kstep k (KNote fd ge q) k' → bstep (BS c k out cs) (BKq (KNote fd ge q)) (BS c k' out cs)
  | b_take c k cs fd ge k' : kstep k (KTake fd ge) k' → bstep (BS c k [] cs) (BKq (KTake fd ge)) (BS c k' [] cs)
  | b_proc c k cs p st A ord j g evn k' : kstep k (KProc p (TEvent st A ord j g evn)) k' →
      bstep (BS c k [] cs) (BKq (KProc p (TEvent st A ord j g evn))) (BS c k' evn cs)
  | b_send c k e out cs c' : cstep c (LReport (te_info e)) c' → bstep (BS c k (e :: out) cs) (BSend e) (BS c' k out cs).
(** From a state on *)
Inductive bruns : bst → list blab → bst → Prop :=
  | bruns_nil B : bruns B [] B
  | bruns_cons B l B' ls B'' : bstep B l B' → bruns B' ls B'' → bruns B (l :: ls) B''.
(** Nothing is left to do. *)
Definition at_rest (B : bst) : Prop := quiescent (b_c B) ∧ k_pend (b_k B) = ∅ ∧ k_mon (b_k B) = None ∧ b_out B = [].
(** What the watcher sends has an event the tree knows and the clean path of something. *)
Definition sound (ls : list blab) : Prop := ∀ e, BSend e ∈ ls → nreport_ok kqueue slash (te_info e).

(** ** A filesystem *)
(** A run during which the tree's ReadDir sees a filesystem with the directories [D], as in
    SpecLinuxConc.v: what is there when a Watch or Stop has its effect or a directory event is
    processed; [tr] is the history of the tree so far (/repo/tree_nonrecursive.go:80-119,165-250,284-302). *)
Inductive bfrun : list blab → list (nop * result) → gset path → bst → Prop :=
  | bf_init D : dirs_ok slash D → bfrun [] [] D binit
  | bf_other ls tr D B l B' :
      bfrun ls tr D B → bstep B l B' → c_st (b_c B') = c_st (b_c B) →
      (∀ i o r, l ≠ BTree (LCrit i o r)) → (∀ ei, l ≠ BTree (LInt ei)) → bfrun (ls ++ [l]) tr D B'
  | bf_call ls tr D B i o r E B' :
      bfrun ls tr D B → bstep B (BTree (LCrit i o r)) B' →
      nenv kqueue slash E → os_good E o → fs_env slash D E → nstep slash E (c_st (b_c B)) o = (c_st (b_c B'), r) →
      bfrun (ls ++ [BTree (LCrit i o r)]) (tr ++ [(o, r)]) D B'
  | bf_mkdir ls tr D D' p B ei E B' :
      bfrun ls tr D B → bstep B (BTree (LInt ei)) B' →
      ei_event ei = Create kqueue → ei_path ei = render slash p →
      nenv kqueue slash E → reliable E → dirs_ok slash D' → fs_env slash D' E →
      p ∈ D' → D ⊆ D' → (∀ q, q ∈ D' → q ∉ D → p `prefix_of` q) → p ∉ D → ¬ touched kqueue tr p →
      nr_internal E (c_st (b_c B)) ei = c_st (b_c B') →
      bfrun (ls ++ [BTree (LInt ei)]) (tr ++ [(NEvent (Create kqueue) p, NonRec.ROk)]) D' B'
  | bf_rmdir ls tr D D' p B ei E B' :
      bfrun ls tr D B → bstep B (BTree (LInt ei)) B' →
      ei_event ei = Remove kqueue → ei_path ei = render slash p → gpath slash p →
      nenv kqueue slash E → reliable E → (∀ q, q ∈ D' ↔ q ∈ D ∧ ¬ p `prefix_of` q) →
      nr_internal E (c_st (b_c B)) ei = c_st (b_c B') →
      bfrun (ls ++ [BTree (LInt ei)]) (tr ++ [(NEvent (Remove kqueue) p, NonRec.ROk)]) D' B'.
