(** * Property theorem C58: the tree follows directories appearing and disappearing
    below a recursive watch *)
From Verif Require Import Base Event Watchpoint WatchpointFacts Paths PathsFacts Loop LoopFacts
  Node NodeFacts SpecTree WalkFacts RootFacts NonRec NonRecWp SpecNonRec SpecNonRecOS NonRecFacts NonRecOps NonRecReg
  NonRecStep NonRecDisp NonRecStop NonRecOS NonRecCov NonRecFwd NonRecRun Prop_NonRec.
Local Open Scope N_scope.

(** Every creation or removal of a directory inside a directory covered by a
    recursive watch is queued for the goroutine that adjusts the watches. *)
Theorem C58_directory_events_queued P sepc tr D s a n e E ei d c :
  platform_ok P → fexec P sepc tr D s → in_force P tr a n e → nenv P sepc E → d ∈ D → a `prefix_of` d → comp_ok sepc c →
  ei_path ei = render sepc (d ++ [c]) → ei_event ei .& (Create P .| Remove P) ≠ 0 → ei_isdir ei = Some true →
  (nr_dispatch E (st_tree s) ei).2 = true.
Proof. intros HP ? ? ? ? ? ? ? ? ?. by eapply (fexec_forwards P HP). Qed.
(** Nothing else is queued: no other kind of event, no file, no entry whose kind is
    unknown, and nothing in directories the tree holds no record of. *)
Theorem C58_only_directory_events P sepc tr s E ei d c :
  platform_ok P → nexec P sepc tr s → nenv P sepc E → upath sepc d → comp_ok sepc c → ei_path ei = render sepc (d ++ [c]) →
  (nr_dispatch E (st_tree s) ei).2 = true →
  is_Some (st_tree s !! d) ∧ ei_event ei .& (Create P .| Remove P) ≠ 0 ∧ ei_isdir ei = Some true ∧
  ∃ q, q `prefix_of` d ++ [c] ∧ isRecursive P (wp_at (st_tree s) q) = true.
Proof.
  intros HP Hx HE Hd Hc Hp Hf. destruct (nexec_inv P HP sepc tr s Hx) as (Ht&_).
  apply (dispatch_fwd P sepc E (st_tree s) ei d c HE Ht Hd Hc Hp) in Hf as (H1&H2&H3&H4). by split_and!.
Qed.

Definition devt (e : N) (p : string) : event_info := EI e (b p) (Some true) fTypeUnknown.
Example C58_ex :
  fexec linux slash tr1 D0 s1 ∧ in_force linux tr1 (pth "a") 1 (Create linux .| Write linux) ∧ pth "a/b" ∈ D0 ∧
  (nr_dispatch E0 (st_tree s1) (devt (Create linux) "/a/b/n")).2 = true ∧
  (nr_dispatch E0 (st_tree s1) (devt (Remove linux) "/a/b")).2 = true ∧
  (nr_dispatch E0 (st_tree s1) (evt (Create linux) "/a/b/n")).2 = false ∧
  (nr_dispatch E0 (st_tree s1) (devt (Write linux) "/a/b/n")).2 = false ∧
  (nr_dispatch E0 (st_tree s1) (devt (Create linux) "/x/n")).2 = false.
Proof.
  split_and!; [apply ops1_fexec|apply tr1_in_force|apply (bool_decide_unpack _); by vm_compute|by vm_compute..].
Qed.
Print Assumptions C58_directory_events_queued.
Print Assumptions C58_only_directory_events.
