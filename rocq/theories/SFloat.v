(** * Specification vocabulary for doubles: their values as real numbers *)
From Coq Require Export Reals.
From Verif Require Export Base.

(** the value of a finite double (0 for NaN and the infinities) *)
Definition fval (f : f64) : R :=
  match f with
  | S754_finite s m e => ((if s then -1 else 1) * IZR (Z.pos m) * powerRZ 2 e)%R
  | _ => 0%R
  end.

(** half a unit in the last place of 1 *)
Definition eps : R := powerRZ 2 (-53).

(** [x] is [exact] up to [k] roundings *)
Definition within_roundings (k : nat) (x exact : R) : Prop :=
  (Rabs (x - exact) <= ((1 + eps) ^ k - 1) * Rabs exact)%R.

Definition zsumsq (l : list Z) : Z := foldr (λ n acc, n * n + acc) 0 l.

(** [f] is the sum of the squares of [l]: exactly while that is at most 2^53,
    and up to [k] roundings in any case *)
Definition good_ss (k : nat) (f : f64) (l : list Z) : Prop :=
  (zsumsq l ≤ 2 ^ 53 → f = fofZ (zsumsq l) ∧ fval f = IZR (zsumsq l)) ∧
  valid_binary 53 1024 f = true ∧ ffinite f = true ∧ fltb f f0 = false ∧
  within_roundings k (fval f) (IZR (zsumsq l)).
