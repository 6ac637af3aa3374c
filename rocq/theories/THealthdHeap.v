(** * Property theorems: healthd's loop and its handlers share no memory (C102)

    [prun o keep (conf0 s hosts) tr c]: healthd's loop, started for [hosts],
    has performed the operations [tr] (responses consumed, purges,
    recalculations, reads that send a snapshot to a handler); between any two
    of them other goroutines have written what they like into the cells they
    hold, [keep] excepted, and allocated. *)
From Verif Require Import SHealthdHeap PHealthdHeap3 PHealthdHeapEx PHealthdEx PHeapEx.

(** ** C102 *)
Theorem C102_handlers_cannot_interfere : ∀ o keep s hosts tr c,
  fair o → prun o keep (conf0 s hosts) tr c →
  ∃ vtr v, same_ops tr vtr ∧ hrun (hd_init hosts) vtr (Ok v) ∧ shows_hd (s_heap (c_st c)) (c_hd c) v.
Proof. exact heap_agrees. Qed.
Print Assumptions C102_handlers_cannot_interfere.

Theorem C102_same_outcome : ∀ o keep s hosts tr c op,
  fair o → prun o keep (conf0 s hosts) tr c → pop_ok (c_hd c) op → ¬ is_read op →
  ∃ vtr v vop, same_ops tr vtr ∧ hrun (hd_init hosts) vtr (Ok v) ∧ same_op op vop ∧ hop_ok v vop ∧
    match hstep v vop with
    | Ok v' => ∃ s' ph, p_step (c_hd c) op o (c_st c) = Ok (s', (ph, None)) ∧ shows_hd (s_heap s') ph v'
    | Crash why => p_step (c_hd c) op o (c_st c) = Crash why
    end.
Proof. exact heap_step. Qed.
Print Assumptions C102_same_outcome.

Theorem C102_snapshot_is_new : ∀ o keep s hosts tr c,
  fair o → prun o keep (conf0 s hosts) tr c →
  ∃ vtr v s' sl, same_ops tr vtr ∧ hrun (hd_init hosts) vtr (Ok v) ∧
    p_step (c_hd c) PRead o (c_st c) = Ok (s', (c_hd c, Some sl)) ∧
    shows_slice (s_heap s') sl (pa_ia <$> hd_pub v) ∧
    NoDup (cells_slice (s_heap s') sl) ∧
    (∀ x, x ∈ cells_slice (s_heap s') sl → s_heap (c_st c) !! x = None) ∧
    s_heap (c_st c) ⊆ s_heap s' ∧
    ∃ w, s_log s' = w ++ s_log (c_st c) ∧ ∀ x, x ∈ w → s_heap (c_st c) !! x = None.
Proof. exact heap_read. Qed.
Print Assumptions C102_snapshot_is_new.

Theorem C102_loop_leaves_handlers_alone : ∀ o keep s hosts tr c op s' r,
  fair o → prun o keep (conf0 s hosts) tr c → pop_ok (c_hd c) op → p_step (c_hd c) op o (c_st c) = Ok (s', r) →
  (∀ x, x ∈ c_theirs c → s_heap s' !! x = s_heap (c_st c) !! x) ∧
  ∃ w, s_log s' = w ++ s_log (c_st c) ∧ ∀ x, x ∈ c_theirs c → x ∉ w.
Proof. exact heap_frame. Qed.
Print Assumptions C102_loop_leaves_handlers_alone.

Theorem C102_snapshot_stays : ∀ o keep s hosts tr1 c1 tr2 c2,
  fair o → prun o ∅ (conf0 s hosts) tr1 c1 → keep ⊆ c_theirs c1 → prun o keep c1 tr2 c2 →
  ∀ x, x ∈ keep → s_heap (c_st c2) !! x = s_heap (c_st c1) !! x.
Proof. exact heap_keep. Qed.
Print Assumptions C102_snapshot_stays.

(** two hosts, a snapshot, all of whose cells a handler then overwrites, new
    reports, and a second snapshot: it shows what the hosts reported *)
Example C102_execution : fair ord ∧ prun ord ∅ (conf0 st0 ["a"; "b"]) (xtrace x_heap) (xconf x_heap).
Proof. split; [apply ord_fair|apply x_heap_run]. Qed.
Example C102_example :
  seen_pub (xconf x_heap1) = [Some 15; Some 1] ∧
  (8 < size (c_theirs (xconf x_heap1)))%nat ∧ seen_pub (xconf x_heap) = [Some 16; Some 3] ∧
  (λ r, seen_slice r.1 r.2) <$> xread (xconf x_heap) = Some [Some 16; Some 3].
Proof. vm_compute. split_and!; try done. lia. Qed.
(** after the handler's writes nothing of the first snapshot is left *)
Example C102_example_wrecked :
  Forall (λ x, s_heap (c_st (xconf x_heap)) !! x = Some (VArr [])) (elements (c_theirs (xconf x_heap1))).
Proof. vm_compute. repeat constructor. Qed.
(** a recalculation that crashes in both models *)
Example C102_crash :
  prun ord ∅ (conf0 st0 ["a"; "b"]) (xtrace x_hnull) (xconf x_hnull) ∧
  p_step (c_hd (xconf x_hnull)) (PRecalc (the_porder (c_hd (xconf x_hnull)))) ord (c_st (xconf x_hnull)) =
    Crash "nil pointer dereference".
Proof. split; [apply x_hnull_run|]. by vm_compute. Qed.
