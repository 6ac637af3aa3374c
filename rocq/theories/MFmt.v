(** * Go's number formatting (strconv), as far as /repo uses it.

    Nothing here models a function of /repo: it fixes the meaning of
    [strconv.AppendInt]/[fmt %d] and of [strconv.AppendFloat(.., 'f', prec, 64)]
    / [fmt %.Nf] with an explicit precision, which Go computes exactly: the
    binary value is rounded to [prec] decimals, ties to even. *)
From Verif Require Export Base.

Definition digit_char (d : Z) : ascii := Ascii.ascii_of_N (Z.to_N (48 + d)).
Definition digit (d : Z) : string := String (digit_char d) EmptyString.

(** decimal digits of a natural number, no leading zeros ("0" for zero) *)
Fixpoint dec_fuel (fuel : nat) (n : Z) : string :=
  match fuel with
  | O => ""
  | S f => (if n <? 10 then "" else dec_fuel f (n / 10)) +:+ digit (n `mod` 10)
  end.
Definition dec_nat (n : Z) : string := dec_fuel (S (Z.to_nat (Z.log2 n))) n.

(** [strconv.AppendInt(_, n, 10)] *)
Definition dec_int (n : Z) : string :=
  if n <? 0 then "-" +:+ dec_nat (- n) else dec_nat n.

(** the [k] low-order decimal digits of [n], zero-padded *)
Fixpoint dec_fixed (k : nat) (n : Z) : string :=
  match k with O => "" | S k' => dec_fixed k' (n / 10) +:+ digit (n `mod` 10) end.

(** [num / den] rounded to an integer, ties to even *)
Definition div_half_even (num den : Z) : Z :=
  let q := num / den in
  let r := num `mod` den in
  if (den <? 2 * r) || ((den =? 2 * r) && Z.odd q) then q + 1 else q.

(** [m * 2^e * 10^prec] rounded to an integer, ties to even *)
Definition scaled (m : Z) (e : Z) (prec : nat) : Z :=
  if 0 <=? e then m * 2 ^ e * 10 ^ Z.of_nat prec
  else div_half_even (m * 10 ^ Z.of_nat prec) (2 ^ (- e)).

(** a number of [10^-prec] units as text *)
Definition dec_point (n : Z) (prec : nat) : string :=
  dec_nat (n / 10 ^ Z.of_nat prec) +:+
  (match prec with O => "" | _ => "." +:+ dec_fixed prec n end).

(** [strconv.AppendFloat(_, v, 'f', prec, 64)] with prec >= 0 *)
Definition fmt_fixed (v : f64) (prec : nat) : string :=
  match v with
  | S754_nan => "NaN"
  | S754_infinity false => "+Inf"
  | S754_infinity true => "-Inf"
  | S754_zero s => (if s then "-" else "") +:+ dec_point 0 prec
  | S754_finite s m e => (if s then "-" else "") +:+ dec_point (scaled (Z.pos m) e prec) prec
  end.
