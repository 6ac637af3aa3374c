(** * Specifications for the pointer-level model

    What a pointer shows in a heap, and which cells it leads to.  Nothing here
    uses the functions of MHeap.v. *)
From Verif Require Export MHeap.

(** ** Contents *)

(** same keys, related values *)
Definition same_entries {A B} (R : A → B → Prop) (m : gmap string A) (m' : gmap string B) : Prop :=
  ∀ k, match m !! k, m' !! k with
       | Some a, Some b => R a b
       | None, None => True
       | _, _ => False
       end.

Definition shows_timer (h : heap) (p : addr) (t : timer) : Prop := h !! p = Some (VTimer t).
Definition shows_errc (h : heap) (p : addr) (e : errc) : Prop := h !! p = Some (VErrc e).

(** the four maps *)
Definition shows_maps (h : heap) (hm : hmaps) (am : amaps) : Prop :=
  (∃ pm, h !! hm_timers hm = Some (VTimers pm) ∧ same_entries (shows_timer h) pm (am_timers am)) ∧
  h !! hm_gauges hm = Some (VGauges (am_gauges am)) ∧
  h !! hm_events hm = Some (VEvents (am_events am)) ∧
  (∃ pm, h !! hm_errs hm = Some (VErrs pm) ∧ same_entries (shows_errc h) pm (am_errs am)).

Definition shows_job (h : heap) (p : addr) (j : jobagg) : Prop :=
  ∃ maps, h !! p = Some (VJob (HJob maps (j_timer j) (j_success j) (j_verror j) (j_panic j) (j_error j) (j_junk j))) ∧
          shows_maps h maps (j_maps j).

(** [shows h p a]: reading the aggregation at [p] gives [a] *)
Definition shows (h : heap) (p : addr) (a : ia) : Prop :=
  ∃ jobs maps pm,
    h !! p = Some (VIa (HIA (ia_start a) (ia_serial a) jobs maps)) ∧
    h !! jobs = Some (VJobs pm) ∧ same_entries (shows_job h) pm (ia_jobs a) ∧
    shows_maps h maps (ia_maps a).

(** the elements of a slice, in order *)
Definition shows_slice (h : heap) (s : slice) (l : list ia) : Prop :=
  ∃ arr, h !! sl_arr s = Some (VArr arr) ∧
    Forall2 (λ o a, ∃ p, o = Some p ∧ shows h p a) (take (sl_len s) arr) l.

(** ** The cells a pointer leads to (with repetitions when there is sharing) *)
Definition entries {A} (m : gmap string A) : list A := (map_to_list m).*2.

Definition cells_maps (h : heap) (hm : hmaps) : list addr :=
  [hm_timers hm; hm_gauges hm; hm_events hm; hm_errs hm] ++
  (match h !! hm_timers hm with Some (VTimers pm) => entries pm | _ => [] end) ++
  (match h !! hm_errs hm with Some (VErrs pm) => entries pm | _ => [] end).

Definition cells_job (h : heap) (p : addr) : list addr :=
  p :: match h !! p with Some (VJob j) => cells_maps h (hj_maps j) | _ => [] end.

Definition cells (h : heap) (p : addr) : list addr :=
  p :: match h !! p with
       | Some (VIa i) =>
           hi_jobs i ::
           (match h !! hi_jobs i with Some (VJobs pm) => concat (cells_job h <$> entries pm) | _ => [] end) ++
           cells_maps h (hi_maps i)
       | _ => []
       end.

Definition cells_slice (h : heap) (s : slice) : list addr :=
  sl_arr s ::
  match h !! sl_arr s with
  | Some (VArr arr) => concat ((λ o, match o with Some p => cells h p | None => [] end) <$> take (sl_len s) arr)
  | _ => []
  end.

(** No cell of the aggregation is reached along two paths. *)
Definition unshared (h : heap) (p : addr) : Prop := NoDup (cells h p).

(** Two aggregations have no cell in common. *)
Definition apart (h : heap) (p q : addr) : Prop := ∀ x, x ∈ cells h p → x ∈ cells h q → False.

(** ** Arbitrary mutation through a pointer

    [mutates h O h']: a party that may write the cells in [O] and may allocate
    turns [h] into [h']; what it writes may point anywhere. *)
Inductive mutates (O : addr → Prop) : heap → heap → Prop :=
  | mut_done h : mutates O h h
  | mut_write h h' x c : O x → is_Some (h !! x) → mutates O (<[x := c]> h) h' → mutates O h h'
  | mut_alloc h h' x c : h !! x = None → mutates (λ y, O y ∨ y = x) (<[x := c]> h) h' → mutates O h h'.

(** the pointers in a slice *)
Definition pointers (h : heap) (s : slice) : list (option addr) :=
  match h !! sl_arr s with Some (VArr arr) => take (sl_len s) arr | _ => [] end.
