(** * Model of error samples as they are: pointers to errors that still change

    interval_aggregation.go:94-127, error.go:7-36, stack/stack.go:13-33.  MAgg.v
    keeps of an error what does not change, its text and the program counters of
    its stack.  Here one [ErrorCounter] of a polling sink keeps pointers, and
    reflect.DeepEqual reads what they point to when the sink's goroutine gets
    there.  Meanwhile the reporting goroutine sets [Emitted] (health.go:123-125)
    and a Bugsnag sink's goroutine resolves [frames] (stack/stack.go:27-32). *)
From Verif Require Export Base.

(** error.go:7-15: [x] is what the error wraps, its type and contents; [trace] and
    [framed] are [stack] and [frames != nil] of stack/stack.go:13-16 *)
Inductive pobj :=
  | PMuted (x : string)
  | PUnmuted (x : string) (trace : list N) (framed emitted : bool).

(** reflect.DeepEqual of two such pointers: equal pointers are equal; else the
    types, then the fields in order.  A nil and a non-nil slice differ, and the
    frames are a function of the program counters. *)
Definition deep_equal (h : list pobj) (a b : nat) : bool :=
  if bool_decide (a = b) then true
  else match h !! a, h !! b with
  | Some (PMuted x), Some (PMuted y) => bool_decide (x = y)
  | Some (PUnmuted x t f m), Some (PUnmuted y u g n) =>
      bool_decide (x = y) && bool_decide (t = u) && eqb f g && eqb m n
  | _, _ => false
  end.

(** interval_aggregation.go:51-57 [ErrorCounter] *)
Record pcounter := PCounter { pc_count : Z; pc_samples : list (option nat); pc_index : nat }.
Definition pcounter0 : pcounter := PCounter 0 (replicate 5 None) 0.

(** interval_aggregation.go:99-108 [addError] *)
Definition p_add_error (h : list pobj) (ec : pcounter) (e : nat) : pcounter :=
  match pc_samples ec !! pc_index ec with
  | Some (Some last) =>
      if deep_equal h last e then ec
      else
        let i := Nat.modulo (pc_index ec + 1) (length (pc_samples ec)) in
        PCounter (pc_count ec) (<[i := Some e]> (pc_samples ec)) i
  | _ => PCounter (pc_count ec) (<[pc_index ec := Some e]> (pc_samples ec)) (pc_index ec)
  end.
(** interval_aggregation.go:94-97 [incrementAndAddError] *)
Definition p_increment (h : list pobj) (ec : pcounter) (e : nat) : pcounter :=
  p_add_error h (PCounter (w64 (pc_count ec + 1)) (pc_samples ec) (pc_index ec)) e.
(** interval_aggregation.go:110-127 [getErrorSamples] *)
Definition p_samples (ec : pcounter) : list nat := omap id (pc_samples ec).

(** the errors made so far, those queued for the sink's goroutine, the counter *)
Record est := Est { es_heap : list pobj; es_queue : list nat; es_ec : pcounter }.
Definition est0 : est := Est [] [] pcounter0.

Inductive eop :=
  | EWrap (x : string) (trace : list N)  (* error.go:34: wrapErr made an error *)
  | EMute (x : string)                   (* error.go:25: Mute made one *)
  | ESend (l : nat)                      (* json_polling_sink.go:61: EmitEventErr queued it *)
  | EMark (l : nat)                      (* health.go:124, 136: Emitted = true *)
  | EFrames (l : nat)                    (* stack/stack.go:27: Frames() resolved the stack *)
  | ETake.                               (* aggregator.go:92: the goroutine counted it *)

Definition set_obj (s : est) (l : nat) (o : pobj) : est := Est (<[l := o]> (es_heap s)) (es_queue s) (es_ec s).

Definition estep (s : est) (a : eop) : option est :=
  match a with
  | EWrap x t => Some (Est (es_heap s ++ [PUnmuted x t false false]) (es_queue s) (es_ec s))
  | EMute x => Some (Est (es_heap s ++ [PMuted x]) (es_queue s) (es_ec s))
  | ESend l => match es_heap s !! l with Some _ => Some (Est (es_heap s) (es_queue s ++ [l]) (es_ec s)) | None => None end
  | EMark l =>
      match es_heap s !! l with
      | Some (PUnmuted x t f _) => Some (set_obj s l (PUnmuted x t f true))
      | Some (PMuted _) => Some s
      | None => None
      end
  | EFrames l =>
      match es_heap s !! l with
      | Some (PUnmuted x t _ m) => Some (set_obj s l (PUnmuted x t true m))
      | _ => None
      end
  | ETake =>
      match es_queue s with
      | l :: q => Some (Est (es_heap s) q (p_increment (es_heap s) (es_ec s) l))
      | [] => None
      end
  end.
Fixpoint erun (s : est) (ops : list eop) : option est :=
  match ops with [] => Some s | a :: ops => s ← estep s a; erun s ops end.
