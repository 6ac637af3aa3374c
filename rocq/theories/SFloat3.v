(** * Specification: Librato measurements of ordinary size (C84) *)
From Verif Require Export SLibrato SFloat.

(** a duration is an int64; a gauge is a finite double of magnitude at most 10^100 *)
Definition modest (e : emission) : Prop :=
  match e with
  | WTiming _ n | WComplete _ n => in_int64 n
  | WGauge _ v => valid_binary 53 1024 v = true ∧ ffinite v = true ∧ (Rabs (fval v) <= IZR (10 ^ 100))%R
  | _ => True
  end.
