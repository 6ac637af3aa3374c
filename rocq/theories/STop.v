(** * What healthtop and healthd's command line should do (C70, C89-C91) *)
From Verif Require Export SApi SWriter MTop.

(** the name occurs in it *)
Definition occurs (sub s : string) : Prop := ∃ a b, s = a +:+ sub +:+ b.

(** ** The status line *)
Definition ev_time {A} (e : tev A) : Z := match e with TResponse _ t | TError _ t => t end.
Definition is_error {A} (e : tev A) : Prop := match e with TError _ _ => True | _ => False end.
(** clocks: nothing happens at year 1, and time passes *)
Definition ticking {A} (l : list (tev A)) : Prop :=
  Forall (λ e, 0 < ev_time e) l ∧ StronglySorted (λ a b, ev_time a < ev_time b) l.
Definition last_response {A} (l : list (tev A)) (a : A) : Prop :=
  ∃ l1 l2 t, l = l1 ++ TResponse a t :: l2 ∧ Forall is_error l2.

(** ** Cells *)
Definition cell_unit (nanos : Z) : Z * string :=
  if decide (nanos ≤ 1000) then (1, "ns") else if decide (nanos ≤ 2000000) then (1000, mu_s) else (1000000, "ms").
Definition cell_text (nanos : Z) (t : string) : Prop :=
  ∃ d n, int_numeral d n ∧ t = d +:+ " " +:+ (cell_unit nanos).2 ∧
    n * (cell_unit nanos).1 ≤ nanos < (n + 1) * (cell_unit nanos).1.

(** ** Addresses *)
Definition free_of (c : ascii) (s : string) : Prop := c ∉ bytes_of s.
(** a client that dials [dial] gets to a server on this machine that listens on [listen] *)
Definition reaches (dial listen : string) : Prop :=
  ∃ host port, dial = host +:+ ":" +:+ port ∧ listen = ":" +:+ port ∧ free_of ":" port.

(** [l'] is [l] without what does not satisfy [P] *)
Inductive kept {A} (P : A → Prop) : list A → list A → Prop :=
  | K_nil : kept P [] []
  | K_yes x l l' : P x → kept P l l' → kept P (x :: l) (x :: l')
  | K_no x l l' : ¬ P x → kept P l l' → kept P (x :: l) l'.
