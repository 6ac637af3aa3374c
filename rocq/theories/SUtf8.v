(** * UTF-8 *)
From Verif Require Export MUtf8.

(** the Unicode scalar values *)
Definition scalar (r : Z) : Prop := 0 ≤ r < 55296 ∨ 57343 < r ≤ 1114111.
(** their encodings *)
Definition utf8 (r : Z) : string :=
  if decide (r < 128) then String (zchar r) ""
  else if decide (r < 2048) then String (zchar (192 + r / 64)) (String (zchar (128 + r `mod` 64)) "")
  else if decide (r < 65536) then
    String (zchar (224 + r / 4096)) (String (zchar (128 + (r / 64) `mod` 64)) (String (zchar (128 + r `mod` 64)) ""))
  else
    String (zchar (240 + r / 262144)) (String (zchar (128 + (r / 4096) `mod` 64))
      (String (zchar (128 + (r / 64) `mod` 64)) (String (zchar (128 + r `mod` 64)) ""))).

(** [s] is read as the runes [rs]: an encoded character where there is one,
    otherwise one byte that stands for U+FFFD *)
Inductive reads : string → list Z → Prop :=
  | Rd_nil : reads "" []
  | Rd_char r s rs : scalar r → reads s rs → reads (utf8 r +:+ s) (r :: rs)
  | Rd_bad c s rs : (∀ r t, scalar r → String c s ≠ utf8 r +:+ t) → reads s rs → reads (String c s) (65533 :: rs).

(** well-formed text *)
Definition valid_utf8 (s : string) : Prop := ∃ rs, Forall scalar rs ∧ s = str_concat (map utf8 rs).
