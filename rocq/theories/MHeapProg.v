(** * Programs over aggregations

    A client of the package holds a list of pointers to aggregations it made
    with NewIntervalAggregation (interval_aggregation.go:74-80) or Clone, feeds
    them commands (the Emit methods, aggregator.go:81-122) and merges one into
    another, as healthd does (healthd/healthd.go:185-219).  An operation on a
    handle that does not exist, or a merge of an aggregation into itself, is
    skipped. *)
From Verif Require Export MHeap.

Inductive hop := HNew (start : Z) | HApply (i : nat) (c : cmd) | HClone (i : nat) | HMerge (i j : nat).

(** on pointers *)
Definition h_op (ps : list addr) (op : hop) : M (list addr) :=
  match op with
  | HNew start => p ←h h_new_ia start; hret (ps ++ [p])
  | HApply i c => match ps !! i with Some p => _ ←h h_apply p c; hret ps | None => hret ps end
  | HClone i => match ps !! i with Some p => q ←h h_clone_ia p; hret (ps ++ [q]) | None => hret ps end
  | HMerge i j =>
      match ps !! i, ps !! j with
      | Some p, Some q => if Nat.eqb i j then hret ps else _ ←h h_merge_ia p q; hret ps
      | _, _ => hret ps
      end
  end.
Definition h_prog (prog : list hop) : M (list addr) := hfold h_op prog [].

(** on values *)
Definition v_op (vs : list ia) (op : hop) : list ia :=
  match op with
  | HNew start => vs ++ [new_ia start]
  | HApply i c => alter (λ a, ia_apply a c) i vs
  | HClone i => match vs !! i with Some a => vs ++ [a] | None => vs end
  | HMerge i j =>
      match vs !! j with
      | Some b => if Nat.eqb i j then vs else alter (λ a, ia_merge a b) i vs
      | None => vs
      end
  end.
Definition v_prog (prog : list hop) : list ia := fold_left v_op prog [].
