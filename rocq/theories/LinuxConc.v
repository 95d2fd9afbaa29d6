(** * LinuxConc: the goroutines of the tree and of the inotify watcher together.

    The steps are those of TreeConc.v (callers, dispatcher, goroutines of events, the
    goroutine for directory events) and of InotifyPipe.v (kernel, loop, consumers), put
    together where they meet: an event a consumer sends is received by the channel of the
    dispatcher if there is room (/repo/tree.go:7,16,21, /repo/watcher_inotify.go:253-255), and
    whoever holds the write lock of the tree makes the calls of the watcher
    (/repo/tree_nonrecursive.go:87-93,110,177-221,285-297).  The tree's own step stands at
    the end of what is done under the lock, the calls of the watcher in their order before
    it: nobody else sees the tree meanwhile, but kernel, loop and consumers run on between
    the calls and in the middle of each.  Simplified: the calls of the watcher that a
    recursive Watch, Stop or the goroutine for directory events makes do not fail (see
    C20 for what a failure leaves); those of another Watch may. *)
From Verif Require Import Base Event Watchpoint Paths Loop Node NonRec SpecNonRec SpecNonRecOS Clean Inotify SpecInotify
  InotifyPipe SpecInotifyPipe TreeConc SpecTreeConc Prop_TreeConc Prop_Linux.
Local Open Scope N_scope.

(** A step of the tree's goroutines alone, of the watcher's and the kernel alone, the
    sending of event [e] of batch [k]. *)
Inductive slab := STree (l : lab) | SPipe (l : plab) | SSend (k : nat) (e : ievent).
Definition trees (ls : list slab) : list lab :=
  omap (λ l, match l with STree l => Some l | SSend _ e => Some (LReport (ie_info e)) | SPipe _ => None end) ls.
Definition pipes (ls : list slab) : list plab :=
  omap (λ l, match l with SPipe l => Some l | SSend k e => Some (PSent k e) | STree _ => None end) ls.

(** Somebody holds the write lock of the tree. *)
Definition writing (c : cfg) : Prop :=
  (∃ i o, c_thr c !! i = Some (TCall o WHold)) ∨ ∃ ei, c_int c = IProc ei WHold.
(** Steps of the tree that need nothing of the watcher. *)
Definition outer (l : lab) : Prop := match l with LReport _ | LCrit _ _ _ | LInt _ => False | _ => True end.
(** Steps of calls of the watcher. *)
Definition of_call (l : plab) : Prop := match l with PBegin _ _ _ | PEnd _ _ | PFail _ _ => True | _ => False end.
Notation tstep := (step (nonrec_ops slash) (nenv linux slash) (ncall_ok linux slash) (λ _, True)).

Inductive srun : list slab → cfg → pst → Prop :=
  | srun_init : srun [] cfg0 pinit
  | srun_tree ls c s l c' : srun ls c s → tstep c l c' → outer l → srun (ls ++ [STree l]) c' s
  (* the end of what a call of Watch or Stop does under the lock *)
  | srun_crit ls c s i o E t r :
      srun ls c s → c_thr c !! i = Some (TCall o WHold) → nenv linux slash E → os_good E o →
      nstep slash E (c_st c) o = (t, r) → st_panic t = false →
      p_call s = None → drives (st_log t) (calls (pipes ls)) →
      srun (ls ++ [STree (LCrit i o r)]) (set_st (set_thr c i (TCall o (WLeft r))) t) s
  (* the same of the processing of a directory event *)
  | srun_int ls c s ei E t :
      srun ls c s → c_int c = IProc ei WHold → nenv linux slash E → reliable E →
      nr_internal E (c_st c) ei = t → st_panic t = false →
      p_call s = None → drives (st_log t) (calls (pipes ls)) →
      srun (ls ++ [STree (LInt ei)]) (set_st (set_int c (IProc ei (WLeft ROk))) t) s
  | srun_pipe ls c s l s' :
      srun ls c s → pstep s l s' → (∀ k e, l ≠ PSent k e) → (of_call l → writing c) → srun (ls ++ [SPipe l]) c s'
  | srun_send ls c s k e c' s' :
      srun ls c s → tstep c (LReport (ie_info e)) c' → pstep s (PSent k e) s' → srun (ls ++ [SSend k e]) c' s'.
