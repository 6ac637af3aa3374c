(** * Base: Go arithmetic, floats, crashes and map iteration.

    Nothing here models a function of /repo; it fixes the meaning of the Go
    built-ins that the models use. *)
From Coq Require Export Ascii ZArith Floats.SpecFloat.
From stdpp Require Export base sorting numbers option strings gmap list.
From stdpp Require Export list.

#[global] Open Scope Z_scope.

(** ** int64

    Go's [int64] is two's complement: the result of [+], [-], [*] is reduced
    modulo 2^64 into [-2^63, 2^63). *)
Definition w64 (z : Z) : Z := (z + 2 ^ 63) `mod` 2 ^ 64 - 2 ^ 63.

Definition in_int64 (z : Z) : Prop := - 2 ^ 63 ≤ z < 2 ^ 63.

(** ** float64

    IEEE-754 binary64, round to nearest even; [spec_float] has a single NaN. *)
Definition f64 : Type := spec_float.
Definition fadd : f64 → f64 → f64 := SFadd 53 1024.
Definition fsub : f64 → f64 → f64 := SFsub 53 1024.
Definition fmul : f64 → f64 → f64 := SFmul 53 1024.
Definition fdiv : f64 → f64 → f64 := SFdiv 53 1024.
Definition fsqrt : f64 → f64 := SFsqrt 53 1024.
(** [float64(n)] for an integer n: nearest double. *)
Definition fofZ (n : Z) : f64 := binary_normalize 53 1024 n 0 false.
(** [a < b], [a > b] and [a == b] on float64 (false when a NaN is involved). *)
Definition fltb (a b : f64) : bool := SFltb a b.
Definition fgtb (a b : f64) : bool := SFltb b a.
Definition feqb (a b : f64) : bool := SFeqb a b.
(** The zero value of a float64. *)
Definition f0 : f64 := S754_zero false.
(** Finite: neither NaN nor an infinity. *)
Definition ffinite (f : f64) : bool :=
  match f with S754_zero _ | S754_finite _ _ _ => true | _ => false end.

(** ** Run-time panics

    [Crash why] is an unrecovered Go panic: the process dies. *)
Inductive res (A : Type) : Type :=
  | Ok (a : A)
  | Crash (why : string).
Arguments Ok {A} a.
Arguments Crash {A} why.

Definition rbind {A B} (r : res A) (f : A → res B) : res B :=
  match r with Ok a => f a | Crash w => Crash w end.
Notation "x ←r e ; k" := (rbind e (λ x, k)) (at level 20, e at level 100, k at level 200, right associativity).

(** ** Go maps

    [range] over a map visits its entries in an unspecified order.  A loop is
    therefore a fold over a list of entries, and [enumerates l m] says that
    [l] is one of the orders Go may choose for [m]. *)
Definition range {V A} (l : list (string * V)) (body : string → V → A → A) (a : A) : A :=
  fold_left (λ acc kv, body kv.1 kv.2 acc) l a.

Definition enumerates {V} (l : list (string * V)) (m : gmap string V) : Prop :=
  l ≡ₚ map_to_list m.

(** [m[k]] read of a missing key: the zero value of the element type. *)
Definition mget {V} (m : gmap string V) (k : string) (zero : V) : V := default zero (m !! k).

(** ** Strings *)
Fixpoint str_concat (l : list string) : string :=
  match l with [] => "" | s :: l' => s +:+ str_concat l' end.

Definition newline : ascii := Ascii.ascii_of_nat 10.
Definition nl : string := String newline EmptyString.

(** strings as lists of bytes *)
Fixpoint bytes_of (s : string) : list ascii :=
  match s with EmptyString => [] | String c s' => c :: bytes_of s' end.
Fixpoint str_of (l : list ascii) : string :=
  match l with [] => EmptyString | c :: l' => String c (str_of l') end.
Definition byte_count (c : ascii) (s : string) : nat := length (filter (λ x, x = c) (bytes_of s)).
Definition code (c : ascii) : N := N_of_ascii c.
