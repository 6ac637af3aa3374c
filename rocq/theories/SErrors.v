(** * What the samples of an error counter should be (C14) *)
From Verif Require Export MErrors SAgg.

(** what an error is: muted or not, what it wraps, where it was reported first;
    none of this ever changes *)
Definition contents (o : pobj) : bool * string * list N :=
  match o with PMuted x => (true, x, []) | PUnmuted x t _ _ => (false, x, t) end.
Definition what (s : est) (l : nat) : option (bool * string * list N) := contents <$> es_heap s !! l.

#[global] Instance eop_dec : EqDecision eop. Proof. solve_decision. Defined.
(** the errors queued, and those of them the goroutine has counted *)
Definition queued (ops : list eop) : list nat := omap (λ a, match a with ESend l => Some l | _ => None end) ops.
Definition counted_errs (ops : list eop) : list nat :=
  take (length (filter (λ a, a = ETake) ops)) (queued ops).

(** [thinned xs ys]: [ys] is [xs] without some elements that equal the one before *)
Inductive thinned {A} : list A → list A → Prop :=
  | Th_nil : thinned [] []
  | Th_keep xs ys x : thinned xs ys → thinned (xs ++ [x]) (ys ++ [x])
  | Th_drop xs ys x : thinned xs ys → last xs = Some x → thinned (xs ++ [x]) ys.

(** the report of an error is over: EventErr has set the flag *)
Definition marked (s : est) (l : nat) : Prop :=
  match es_heap s !! l with Some (PUnmuted _ _ _ m) => m = true | Some (PMuted _) => True | None => False end.
(** reports are over when the goroutine counts them, and no stack was resolved *)
Definition settled (ops : list eop) : Prop :=
  (∀ l, EFrames l ∉ ops) ∧
  ∀ ops1 ops2 s l q, ops = ops1 ++ ETake :: ops2 → erun est0 ops1 = Some s → es_queue s = l :: q → marked s l.
