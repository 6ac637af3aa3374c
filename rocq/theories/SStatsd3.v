(** * Specification: the number a decimal text denotes *)
From Coq Require Export Reals.
From Verif Require Export SStatsd SFloat.
From Verif Require MNum.

Definition digit_of (c : ascii) : option Z :=
  if (48 <=? code c)%N && (code c <=? 57)%N then Some (Z.of_N (code c) - 48) else None.

(** digits after the decimal point: numerator and denominator so far *)
Fixpoint read_frac (num den : Z) (s : string) : option (Z * Z) :=
  match s with
  | "" => Some (num, den)
  | String c s' => d ← digit_of c; read_frac (10 * num + d) (10 * den) s'
  end.
Fixpoint read_unsigned (num : Z) (s : string) : option (Z * Z) :=
  match s with
  | "" => Some (num, 1)
  | String c s' =>
      if ascii_dec c "."%char then match s' with "" => None | _ => read_frac num 1 s' end
      else d ← digit_of c; read_unsigned (10 * num + d) s'
  end.
Definition read_digits (s : string) : option (Z * Z) :=
  match s with String c _ => d ← digit_of c; read_unsigned 0 s | "" => None end.
(** [[-]digits[.digits]] as a fraction *)
Definition read_num (s : string) : option (Z * Z) :=
  match s with
  | String c s' =>
      if ascii_dec c "-"%char then '(n, d) ← read_digits s'; Some (- n, d)
      else read_digits s
  | "" => None
  end.

(** the text denotes [x] *)
Definition denotes (s : string) (x : R) : Prop :=
  ∃ n d, read_num s = Some (n, d) ∧ 0 < d ∧ x = (IZR n / IZR d)%R.

Example read_num_1 : read_num "-12.50" = Some (-1250, 100).
Proof. reflexivity. Qed.
Example read_num_2 : read_num "1.2.3" = None ∧ read_num "12ms" = None ∧ read_num "7" = Some (7, 1).
Proof. done. Qed.
Example read_num_3 : read_num "-" = None ∧ read_num ".5" = None ∧ read_num "5." = None ∧ read_num "+5" = None ∧ read_num "-0.5" = Some (-5, 10).
Proof. done. Qed.
Lemma denotes_fun s x y : denotes s x → denotes s y → x = y.
Proof. intros (n & d & H & _ & ->) (n' & d' & H' & _ & ->). rewrite H in H'. by injection H' as -> ->. Qed.

(** what strconv promises of [AppendFloat(_, v, 'f', -1, 64)]: a decimal text
    without exponent that ParseFloat reads as [v] *)
Definition short_codec (sh : f64 → string) : Prop :=
  ∀ v, valid_binary 53 1024 v = true → ffinite v = true → is_Some (read_num (sh v)) ∧ MNum.parse_float (sh v) = Some v.
