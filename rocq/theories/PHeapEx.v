(** * Concrete executions of the pointer-level model *)
From Verif Require Export SHeap MHeapProg.
#[local] Open Scope Z_scope.

(** one fair iteration order *)
Definition ord : orders := λ _ V m, map_to_list m.
Lemma ord_fair : fair ord.
Proof. intros n V m. reflexivity. Qed.

Definition st0 : st := St ∅ [] 0.

(** interval 60, retention 120 *)
Definition ex_before : list (Z * aop) :=
  [(65, OpCmd (CEvent "j" "e")); (66, OpCmd (CTiming "j" "t" 5));
   (130, OpCmd (CEventErr "j" "x" (Some (Err "a" [])))); (131, OpCmd (CComplete "k" Success 10));
   (190, OpCmd (CGauge "j" "g" (fofZ 3))); (191, OpCmd (CEvent "j" "e"))].
Definition ex_after : list (Z * aop) :=
  [(193, OpCmd (CEvent "j" "e")); (194, OpRead); (250, OpTick); (251, OpCmd (CTiming "k" "t" 9)); (400, OpRead)].

Definition ex_new : res (st * haggr) := h_new_aggregator 60 120 ord st0.
Definition ex_run1 : res (st * haggr) := r ←r ex_new; h_run r.2 ex_before ord r.1.
Definition ex_read : res (st * (haggr * option slice)) := r ←r ex_run1; h_step r.2 192 OpRead ord r.1.
Definition ex_run2 : res (st * haggr) := r ←r ex_read; h_run r.2.1 ex_after ord r.1.

Definition get {A} (r : res A) (d : A) : A := match r with Ok x => x | Crash _ => d end.
Definition d_a : haggr := HAggr 0 0 0 (Slice 1%positive 0%nat 0%nat).
Definition d_sa : st * haggr := (st0, d_a).
Definition d_read : st * (haggr * option slice) := (st0, (d_a, None)).

(** ** programs over handles *)
Definition ex_prog : list hop :=
  [HNew 60; HApply 0 (CEvent "j" "e"); HApply 0 (CTiming "j" "t" 7); HClone 0;
   HApply 0 (CEvent "j" "e"); HApply 1 (CEventErr "k" "x" (Some (Err "a" [])));
   HMerge 1 0; HApply 0 (CEvent "j" "e")].
Definition ex_prog_run : res (st * list addr) := h_prog ex_prog ord st0.

Definition ex_merge : list hop :=
  [HNew 60; HApply 0 (CEvent "j" "e"); HApply 0 (CTiming "j" "t" 7); HNew 60; HApply 1 (CEvent "k" "e"); HMerge 1 0].
