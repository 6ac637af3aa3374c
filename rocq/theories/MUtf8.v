(** * UTF-8 as Go reads it

    Nothing here models a function of /repo: it fixes the meaning of [range]
    over a string and of [[]rune(s)] (unicode/utf8.DecodeRuneInString), used by
    sinks/librato/sink.go and encoding/json. *)
From Verif Require Export Base.

Definition zcode (c : ascii) : Z := Z.of_N (code c).
Definition zchar (n : Z) : ascii := Ascii.ascii_of_N (Z.to_N n).
Definition within (lo hi : Z) (c : ascii) : bool := (lo <=? zcode c) && (zcode c <=? hi).

(** utf8.RuneError *)
Definition rune_error : Z := 65533.

(** the range of the second byte, by the first byte (utf8's tables [first] and
    [acceptRanges]) *)
Definition second_lo (b0 : Z) : Z := if b0 =? 224 then 160 else if b0 =? 240 then 144 else 128.
Definition second_hi (b0 : Z) : Z := if b0 =? 237 then 159 else if b0 =? 244 then 143 else 191.

(** the first rune of [String c s], and what follows it: an invalid byte is a
    [rune_error] of width 1 *)
Definition decode_rune (c : ascii) (s : string) : Z * string :=
  let b0 := zcode c in
  if b0 <? 128 then (b0, s)
  else if b0 <? 194 then (rune_error, s)
  else if 244 <? b0 then (rune_error, s)
  else match s with
  | EmptyString => (rune_error, s)
  | String c1 s1 =>
      if negb (within (second_lo b0) (second_hi b0) c1) then (rune_error, s)
      else if b0 <? 224 then ((b0 - 192) * 64 + (zcode c1 - 128), s1)
      else match s1 with
      | EmptyString => (rune_error, s)
      | String c2 s2 =>
          if negb (within 128 191 c2) then (rune_error, s)
          else if b0 <? 240 then ((b0 - 224) * 4096 + (zcode c1 - 128) * 64 + (zcode c2 - 128), s2)
          else match s2 with
          | EmptyString => (rune_error, s)
          | String c3 s3 =>
              if negb (within 128 191 c3) then (rune_error, s)
              else ((b0 - 240) * 262144 + (zcode c1 - 128) * 4096 + (zcode c2 - 128) * 64 + (zcode c3 - 128), s3)
          end
      end
  end.

(** [for _, r := range s]: the runes of a string; [fuel] is at least its length *)
Fixpoint runes_fuel (fuel : nat) (s : string) : list Z :=
  match fuel with
  | O => []
  | S f => match s with
           | EmptyString => []
           | String c s' => let '(r, rest) := decode_rune c s' in r :: runes_fuel f rest
           end
  end.
Definition runes (s : string) : list Z := runes_fuel (String.length s) s.
