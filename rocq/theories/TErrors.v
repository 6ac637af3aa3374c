(** * Property theorems: error samples as pointers (C14)

    [erun est0 ops = Some s]: callers, Bugsnag sinks and the goroutine of a
    polling sink, doing [ops], have led to [s]. *)
From Verif Require Import SErrors PErrors.

(** ** C14: consecutive equal errors do not take one slot *)
(** One goroutine reports the same error twice (the same text from the same
    place).  DeepEqual also compares Emitted, which EventErr sets only after it
    has told the sinks, so that the second error is different as long as its
    report is not over. *)
Theorem C14_one_slot_refuted : ∃ ops s, erun est0 ops = Some s ∧ (∀ l, EFrames l ∉ ops) ∧
  counted_errs ops = [0; 1]%nat ∧ what s 1 = what s 0 ∧ p_samples (es_ec s) = [0; 1]%nat.
Proof. exact thm_slot_refuted. Qed.
Print Assumptions C14_one_slot_refuted.
(** The same with both reports over, when a Bugsnag sink has looked at the stack
    of the first in between. *)
Theorem C14_resolved_stack_refuted : ∃ ops s, erun est0 ops = Some s ∧
  (∀ ops1 ops2 s l q, ops = ops1 ++ ETake :: ops2 → erun est0 ops1 = Some s → es_queue s = l :: q → marked s l) ∧
  counted_errs ops = [0; 1]%nat ∧ what s 1 = what s 0 ∧ p_samples (es_ec s) = [0; 1]%nat.
Proof. exact thm_frames_refuted. Qed.
Print Assumptions C14_resolved_stack_refuted.

(** Whatever the order of events: the count, at most five samples, all of them
    counted, the last one counted (or one like it) among them; and they are the
    last five of a list that lacks only errors like the one before. *)
Theorem C14_samples_partial : ∀ ops s, erun est0 ops = Some s →
  pc_count (es_ec s) = i64 (length (counted_errs ops)) ∧ (length (p_samples (es_ec s)) ≤ 5)%nat ∧
  (∀ l, l ∈ p_samples (es_ec s) → l ∈ counted_errs ops) ∧
  (∀ l, last (counted_errs ops) = Some l → ∃ l', l' ∈ p_samples (es_ec s) ∧ what s l' = what s l) ∧
  ∃ ys, thinned (map (what s) (counted_errs ops)) ys ∧ map (what s) (p_samples (es_ec s)) ≡ₚ lastn 5 ys.
Proof. exact thm_samples. Qed.
Print Assumptions C14_samples_partial.
(** If reports are over before they are counted and no stack is resolved,
    equal errors in a row take one slot. *)
Theorem C14_one_slot_partial : ∀ ops s, erun est0 ops = Some s → settled ops →
  map (what s) (p_samples (es_ec s)) ≡ₚ lastn 5 (squash (map (what s) (counted_errs ops))).
Proof. exact thm_settled. Qed.
Print Assumptions C14_one_slot_partial.

(** an error is marked exactly when a report of it was over, its stack resolved
    exactly when a Bugsnag sink did that: nothing else changes it *)
Theorem C14_what_changes : ∀ ops s, erun est0 ops = Some s → ∀ l,
  match es_heap s !! l with
  | Some (PUnmuted _ _ f m) => (f = true ↔ EFrames l ∈ ops) ∧ (m = true ↔ EMark l ∈ ops)
  | Some (PMuted _) => EFrames l ∉ ops
  | None => EFrames l ∉ ops ∧ EMark l ∉ ops ∧ ESend l ∉ ops
  end.
Proof. exact thm_flags. Qed.
Print Assumptions C14_what_changes.

Example C14_pointers_example : settled er_slow ∧ ∃ s, erun est0 er_slow = Some s ∧ counted_errs er_slow = [0; 1; 2; 1]%nat ∧
  p_samples (es_ec s) = [0; 2; 1]%nat ∧ pc_count (es_ec s) = 4 ∧
  map (what s) [0; 1; 2]%nat = [Some (false, "boom", [7%N]); Some (false, "boom", [7%N]); Some (true, "shh", [])].
Proof.
  split; [apply settled_of; vm_compute; done|]. destruct er_runs as (_&_&[s E]). exists s. split; [done|].
  vm_compute in E. injection E as <-. vm_compute. auto.
Qed.
