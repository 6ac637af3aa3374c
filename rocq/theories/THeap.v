(** * Property theorems: aggregations in memory (C20, C21, C24)

    [shows h p a]: reading the aggregation at pointer [p] in the heap [h] gives
    the value [a].  [cells h p]: the cells reachable from [p].  [mutates O h h']:
    somebody who may write the cells in [O], with anything, and allocate, turns
    [h] into [h'].  [fair o]: every [range] loop visits every entry once, in
    any order. *)
From Verif Require Import MHeap MHeapProg SHeap PHeap7 PHeapEx.
#[local] Open Scope Z_scope.

(** ** C20 *)

(** A snapshot [out] read after any history [hist1] shows the intervals the
    aggregator held at that moment.  After any further history [hist2] it is
    made of the same cells, each with the contents it had, and none of them
    was stored to. *)
Theorem C20_snapshot_is_stable : ∀ o s0 dur retain s a hist1 s1 a1 t s2 a2 sl hist2 s3 a3,
  fair o →
  h_new_aggregator dur retain o s0 = Ok (s, a) →
  h_run a hist1 o s = Ok (s1, a1) →
  h_step a1 t OpRead o s1 = Ok (s2, (a2, sl)) →
  h_run a2 hist2 o s2 = Ok (s3, a3) →
  ∃ out l v v1 v2 w,
    sl = Some out ∧
    new_aggregator dur retain = Ok v ∧ agg_run v hist1 = Ok v1 ∧ agg_step v1 t OpRead = Ok (v2, Some l) ∧
    shows_slice (s_heap s2) (ha_ints a2) l ∧ shows_slice (s_heap s2) out l ∧
    shows_slice (s_heap s3) out l ∧ cells_slice (s_heap s3) out = cells_slice (s_heap s2) out ∧
    s_log s3 = w ++ s_log s2 ∧
    ∀ x, x ∈ cells_slice (s_heap s2) out → s_heap s3 !! x = s_heap s2 !! x ∧ x ∉ w.
Proof. exact thm_snapshot. Qed.
Print Assumptions C20_snapshot_is_stable.

(** The pointer program and the value model of MAgg.v agree on every history,
    including on whether and how it panics; nothing older than the aggregator
    is touched. *)
Theorem C20_pointers_and_values_agree : ∀ o s0 dur retain s a hist,
  fair o → h_new_aggregator dur retain o s0 = Ok (s, a) →
  ∃ v, new_aggregator dur retain = Ok v ∧
  match h_run a hist o s, agg_run v hist with
  | Ok (s', a'), Ok v' => shows_slice (s_heap s') (ha_ints a') (a_ints v') ∧ s_heap s0 ⊆ s_heap s'
  | Crash e, Crash e' => e = e'
  | _, _ => False
  end.
Proof. exact thm_refines. Qed.
Print Assumptions C20_pointers_and_values_agree.

(** The array and the last interval of a snapshot are the reader's own; the
    older intervals are the very pointers the aggregator holds. *)
Theorem C20_only_the_current_interval_is_copied : ∀ o s0 dur retain s a hist s1 a1 t s2 a2 sl,
  fair o →
  h_new_aggregator dur retain o s0 = Ok (s, a) →
  h_run a hist o s = Ok (s1, a1) →
  h_step a1 t OpRead o s1 = Ok (s2, (a2, sl)) →
  ∃ out ps p q, sl = Some out ∧
    pointers (s_heap s2) (ha_ints a2) = Some <$> (ps ++ [p]) ∧
    pointers (s_heap s2) out = Some <$> (ps ++ [q]) ∧
    ∀ x, x = sl_arr out ∨ x ∈ cells (s_heap s2) q → x ∉ cells_slice (s_heap s2) (ha_ints a2).
Proof. exact thm_shares. Qed.
Print Assumptions C20_only_the_current_interval_is_copied.

(** two intervals retained; the first is shared, the second copied; the
    aggregator then goes on for three more intervals, with 22 stores *)
Example C20_example :
  match ex_read, ex_run2 with
  | Ok (s2, (a2, Some out)), Ok (s3, a3) =>
      pointers (s_heap s2) (ha_ints a2) = [Some 20%positive; Some 38%positive] ∧
      pointers (s_heap s2) out = [Some 20%positive; Some 55%positive] ∧
      pointers (s_heap s3) (ha_ints a3) = [Some 73%positive; Some 87%positive] ∧
      pointers (s_heap s3) out = [Some 20%positive; Some 55%positive] ∧
      length (cells_slice (s_heap s2) out) = 30%nat ∧
      (length (s_log s2), length (s_log s3)) = (36%nat, 58%nat)
  | _, _ => False
  end.
Proof. vm_compute. repeat split. Qed.
Example C20_example_current_moves :
  (* the aggregator's own current interval is stored to after the read *)
  match ex_read, ex_run2 with
  | Ok (s2, _), Ok (s3, _) => bool_decide (38%positive ∈ take (length (s_log s3) - length (s_log s2)) (s_log s3)) = true
  | _, _ => False
  end.
Proof. vm_compute. reflexivity. Qed.
Example C20_example_panics :
  match h_new_aggregator 60 59 ord st0 with
  | Ok (s, a) => match h_run a ex_before ord s with Crash _ => True | _ => False end
  | _ => False
  end.
Proof. vm_compute. exact I. Qed.

(** ** C21 *)

(** Clone never fails on a readable aggregation, writes no existing cell, and
    returns an aggregation with the same contents built from new cells only.
    Whatever is later written through one of the two, the other still shows
    what it showed. *)
Theorem C21_clone_is_deep_equal_and_disjoint : ∀ o s p a,
  fair o → shows (s_heap s) p a →
  ∃ s' q w, h_clone_ia p o s = Ok (s', q) ∧
    shows (s_heap s') p a ∧ shows (s_heap s') q a ∧ unshared (s_heap s') q ∧
    apart (s_heap s') p q ∧
    s_log s' = w ++ s_log s ∧ (∀ x, x ∈ w → s_heap s !! x = None) ∧
    (∀ h, mutates (λ x, x ∈ cells (s_heap s') p) (s_heap s') h → shows h q a) ∧
    (∀ h, mutates (λ x, x ∈ cells (s_heap s') q) (s_heap s') h → shows h p a).
Proof. exact thm_clone_both. Qed.
Print Assumptions C21_clone_is_deep_equal_and_disjoint.

(** Every program of constructions, emissions, clones and merges computes on
    pointers what it computes on values; its aggregations share nothing. *)
Theorem C21_programs_never_alias : ∀ o s prog,
  fair o →
  ∃ s' ps w, h_prog prog o s = Ok (s', ps) ∧
    Forall2 (shows (s_heap s')) ps (v_prog prog) ∧
    (∀ p, p ∈ ps → unshared (s_heap s') p) ∧
    (∀ i j p q, ps !! i = Some p → ps !! j = Some q → i ≠ j → apart (s_heap s') p q) ∧
    s_heap s ⊆ s_heap s' ∧ s_log s' = w ++ s_log s ∧ (∀ x, x ∈ w → s_heap s !! x = None).
Proof. exact thm_prog. Qed.
Print Assumptions C21_programs_never_alias.

Example C21_example :
  match ex_prog_run with
  | Ok (s, [p; q]) => (length (cells (s_heap s) p), length (cells (s_heap s) q)) = (13%nat, 20%nat) ∧
      match v_prog ex_prog with
      | [a; b] => (ia_serial a, ia_serial b) = (4, 4) ∧
          am_events (ia_maps a) !! "e" = Some 3 ∧ am_events (ia_maps b) !! "e" = Some 3
      | _ => False
      end
  | _ => False
  end.
Proof. vm_compute. repeat split. Qed.

(** ** C24 *)

(** Merge never fails on disjoint aggregations, gives [a] the merged contents,
    stores to no cell of [b], and leaves the two disjoint: no later mutation
    of one shows in the other. *)
Theorem C24_merge_leaves_its_argument_alone : ∀ o s pa pb a b,
  fair o → shows (s_heap s) pa a → unshared (s_heap s) pa →
  shows (s_heap s) pb b → apart (s_heap s) pa pb →
  ∃ s' w, h_merge_ia pa pb o s = Ok (s', tt) ∧
    shows (s_heap s') pa (ia_merge a b) ∧ unshared (s_heap s') pa ∧
    shows (s_heap s') pb b ∧ cells (s_heap s') pb = cells (s_heap s) pb ∧
    s_log s' = w ++ s_log s ∧
    (∀ x, x ∈ cells (s_heap s) pb → s_heap s' !! x = s_heap s !! x ∧ x ∉ w) ∧
    apart (s_heap s') pa pb ∧
    (∀ h, mutates (λ x, x ∈ cells (s_heap s') pa) (s_heap s') h → shows h pb b) ∧
    (∀ h, mutates (λ x, x ∈ cells (s_heap s') pb) (s_heap s') h → shows h pa (ia_merge a b)).
Proof. exact thm_merge_both. Qed.
Print Assumptions C24_merge_leaves_its_argument_alone.

(** the argument has a job, a timer and a timer of the job that the receiver
    lacks: 7 cells are allocated for it *)
Example C24_example :
  match h_prog (take 5 ex_merge) ord st0, h_prog ex_merge ord st0 with
  | Ok (s, [p; q]), Ok (s', [p'; q']) =>
      (p, q) = (p', q') ∧
      bool_decide (cells (s_heap s') p = cells (s_heap s) p) = true ∧
      forallb (λ x, bool_decide (x ∉ take (length (s_log s') - length (s_log s)) (s_log s'))) (cells (s_heap s) p) = true ∧
      (length (cells (s_heap s) q), length (cells (s_heap s') q)) = (11%nat, 18%nat)
  | _, _ => False
  end.
Proof. vm_compute. repeat split. Qed.
