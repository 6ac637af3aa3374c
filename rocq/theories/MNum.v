(** * Numbers and times as JSON text (strconv, time), as far as /repo uses them

    Nothing here models a function of /repo. *)
From Verif Require Export MJson.

Definition bind {A B} (o : option A) (f : A → option B) : option B := match o with Some a => f a | None => None end.
Notation "x ←o e ; k" := (bind e (λ x, k)) (at level 20, e at level 100, k at level 200, right associativity).

(** the value of a text of decimal digits *)
Fixpoint nat_value (acc : Z) (s : string) : Z :=
  match s with
  | String c s' => nat_value (acc * 10 + (zcode c - 48)) s'
  | EmptyString => acc
  end.
Definition all_digits (s : string) : bool :=
  match digits s with (String _ _, EmptyString) => true | _ => false end.
Definition minus (s : string) : bool * string :=
  match s with String c s' => if Ascii.eqb c "-" then (true, s') else (false, s) | EmptyString => (false, s) end.

(** strconv.ParseInt(s, 10, 64) on the text of a JSON number *)
Definition parse_int (s : string) : option Z :=
  let '(neg, d) := minus s in
  if all_digits d then
    let n := if neg then - nat_value 0 d else nat_value 0 d in
    if (- 2 ^ 63 <=? n) && (n <? 2 ^ 63) then Some n else None
  else None.

(** the float64 nearest to [num / den], ties to even; [None] beyond the largest *)
Definition nearest (neg : bool) (num den : Z) : option f64 :=
  if num =? 0 then Some (S754_zero neg)
  else
    let l := Z.log2 num - Z.log2 den in
    (* 2^l <= num/den *)
    let above := if 0 <=? l then den * 2 ^ l <=? num else den <=? num * 2 ^ (- l) in
    let e := Z.max (-1074) ((if above then l else l - 1) - 52) in
    let q := if 0 <=? e then div_half_even num (den * 2 ^ e) else div_half_even (num * 2 ^ (- e)) den in
    let '(m, e) := if q =? 2 ^ 53 then (2 ^ 52, e + 1) else (q, e) in
    if 971 <? e then None
    else match m with Zpos p => Some (S754_finite neg p e) | _ => Some (S754_zero neg) end.

(** strconv.ParseFloat(s, 64) on the text of a JSON number *)
Definition parse_float (s : string) : option f64 :=
  let '(neg, s0) := minus s in
  let '(ip, s1) := digits s0 in
  let '(fp, s2) := match s1 with String c s' => if Ascii.eqb c "." then digits s' else ("", s1) | EmptyString => ("", s1) end in
  ex ←o match s2 with
        | String c s' =>
            if Ascii.eqb c "e" || Ascii.eqb c "E" then
              let s' := match s' with String c2 s'' => if Ascii.eqb c2 "+" then s'' else s' | EmptyString => s' end in
              let '(n, d) := minus s' in
              if all_digits d then Some (if n : bool then - nat_value 0 d else nat_value 0 d) else None
            else None
        | EmptyString => Some 0
        end;
  let k := ex - Z.of_nat (String.length fp) in
  let n := nat_value 0 (ip +:+ fp) in
  if 0 <=? k then nearest neg (n * 10 ^ k) 1 else nearest neg n (10 ^ (- k)).

(** ** floats: one function that encoding/json could be using

    The shortest of the texts with 1 to 17 digits that is read back, in the
    format of encoding/json: exponents below 1e-6 and from 1e21. *)
Fixpoint zeros (n : nat) : string := match n with O => "" | S n => String "0" (zeros n) end.
(** without trailing zeros *)
Fixpoint trim0 (s : string) : string :=
  match s with
  | String c s' => match trim0 s' with
                   | EmptyString => if Ascii.eqb c "0" then "" else String c ""
                   | t => String c t
                   end
  | EmptyString => ""
  end.
Fixpoint split_at (n : nat) (s : string) : string * string :=
  match n, s with
  | S n', String c s' => let '(a, b) := split_at n' s' in (String c a, b)
  | _, _ => ("", s)
  end.
Definition point (a b : string) : string := match b with EmptyString => a | _ => a +:+ "." +:+ b end.
(** 0.digits * 10^x as text *)
Definition float_layout (ds : string) (x : Z) : string :=
  if (x <=? -6) || (21 <? x) then
    let '(a, b) := split_at 1 ds in
    point a b +:+ "e" +:+ (if 0 <=? x - 1 then "+" +:+ dec_nat (x - 1) else dec_int (x - 1))
  else if x <=? 0 then "0." +:+ zeros (Z.to_nat (- x)) +:+ ds
  else let '(a, b) := split_at (Z.to_nat x) ds in
       point (a +:+ zeros (Z.to_nat x - String.length a)) b.
(** [num / den] with [p] significant digits *)
Definition float_digits (num den : Z) (p : nat) : string :=
  let l := Z.of_nat (String.length (dec_nat num)) - Z.of_nat (String.length (dec_nat den)) in
  (* 10^(l-1) < num/den < 10^(l+1) *)
  let above := if 0 <=? l then den * 10 ^ l <=? num else den <=? num * 10 ^ (- l) in
  let x := if above then l + 1 else l in
  let k := Z.of_nat p - x in
  let d := if 0 <=? k then div_half_even (num * 10 ^ k) den else div_half_even num (den * 10 ^ (- k)) in
  let t := dec_nat d in
  float_layout (trim0 t) (x + (Z.of_nat (String.length t) - Z.of_nat p)).
Definition read_back (f : f64) (t : string) : bool :=
  match number t, parse_float t, f with
  | Some (_, EmptyString), Some (S754_finite s m e), S754_finite s' m' e' => Bool.eqb s s' && Pos.eqb m m' && (e =? e')
  | _, _, _ => false
  end.
Fixpoint first_read_back (f : f64) (l : list string) (last : string) : string :=
  match l with
  | [] => last
  | t :: l' => if read_back f t then t else first_read_back f l' last
  end.
Definition go_float (f : f64) : string :=
  match f with
  | S754_zero s => if s then "-0" else "0"
  | S754_finite s m e =>
      let sg := if s then "-" else "" in
      let num := if 0 <=? e then Z.pos m * 2 ^ e else Z.pos m in
      let den := if 0 <=? e then 1 else 2 ^ (- e) in
      first_read_back f (map (λ p, sg +:+ float_digits num den p) (seq 1 17))
        (sg +:+ if 0 <=? e then dec_nat (Z.pos m * 2 ^ e) else dec_nat (Z.pos m * 5 ^ (- e)) +:+ "e-" +:+ dec_nat (- e))
  | _ => ""
  end.

(** the same without exponents, as strconv does with format 'f' and precision
    -1 *)
Definition fixed_layout (ds : string) (x : Z) : string :=
  if x <=? 0 then "0." +:+ zeros (Z.to_nat (- x)) +:+ ds
  else let '(a, b) := split_at (Z.to_nat x) ds in
       point (a +:+ zeros (Z.to_nat x - String.length a)) b.
Definition short_digits (num den : Z) (p : nat) : string :=
  let l := Z.of_nat (String.length (dec_nat num)) - Z.of_nat (String.length (dec_nat den)) in
  let above := if 0 <=? l then den * 10 ^ l <=? num else den <=? num * 10 ^ (- l) in
  let x := if above then l + 1 else l in
  let k := Z.of_nat p - x in
  let d := if 0 <=? k then div_half_even (num * 10 ^ k) den else div_half_even num (den * 10 ^ (- k)) in
  let t := dec_nat d in
  fixed_layout (trim0 t) (x + (Z.of_nat (String.length t) - Z.of_nat p)).
Definition no_exponent (t : string) : bool := forallb (λ c, negb (Ascii.eqb c "e" || Ascii.eqb c "E")) (list_ascii_of_string t).
Fixpoint first_short (f : f64) (l : list string) (last : string) : string :=
  match l with
  | [] => last
  | t :: l' => if read_back f t && no_exponent t then t else first_short f l' last
  end.
Definition go_short (f : f64) : string :=
  match f with
  | S754_zero s => if s then "-0" else "0"
  | S754_finite s m e =>
      let sg := if s then "-" else "" in
      let num := if 0 <=? e then Z.pos m * 2 ^ e else Z.pos m in
      let den := if 0 <=? e then 1 else 2 ^ (- e) in
      first_short f (map (λ p, sg +:+ short_digits num den p) (seq 1 17))
        (sg +:+ if 0 <=? e then dec_nat (Z.pos m * 2 ^ e) else dec_point (Z.pos m * 5 ^ (- e)) (Z.to_nat (- e)))
  | _ => ""
  end.

(** ** times (RFC 3339)

    Instants are nanoseconds since January 1, year 1, UTC. *)
Definition leap (y : Z) : bool := (y `mod` 4 =? 0) && (negb (y `mod` 100 =? 0) || (y `mod` 400 =? 0)).
Definition month_lengths (lp : bool) : list Z := [31; if lp then 29 else 28; 31; 30; 31; 30; 31; 31; 30; 31; 30; 31].
(** the month (from [m]) and day of a day of the year *)
Fixpoint month_day (m : Z) (ls : list Z) (doy : Z) : Z * Z :=
  match ls with
  | [] => (m, doy + 1)
  | n :: ls' => if doy <? n then (m, doy + 1) else month_day (m + 1) ls' (doy - n)
  end.
(** time.absDate: year, month, day from the number of days *)
Definition civil (day : Z) : Z * Z * Z :=
  let a := day / 146097 in
  let r := day `mod` 146097 in
  let b := Z.min (r / 36524) 3 in
  let r := r - 36524 * b in
  let c := r / 1461 in
  let r := r - 1461 * c in
  let d := Z.min (r / 365) 3 in
  let y := 400 * a + 100 * b + 4 * c + d + 1 in
  let '(m, dd) := month_day 1 (month_lengths (leap y)) (r - 365 * d) in
  (y, m, dd).
(** the number of days before a date *)
Definition days_of (y m d : Z) : Z :=
  365 * (y - 1) + (y - 1) / 4 - (y - 1) / 100 + (y - 1) / 400
  + foldr Z.add 0 (take (Z.to_nat (m - 1)) (month_lengths (leap y))) + (d - 1).

Definition second : Z := 1000000000.
Definition zone_text (off : Z) : string :=
  if off =? 0 then "Z"
  else (if off <? 0 then "-" else "+") +:+ dec_fixed 2 (Z.abs off / 60) +:+ ":" +:+ dec_fixed 2 ((Z.abs off) `mod` 60).
(** Time.MarshalJSON, between the quotes, for a location that is [off] minutes
    ahead of UTC at [t]; an error outside the years 0 to 9999 *)
Definition time_text (off t : Z) : option string :=
  let l := t + off * 60 * second in
  let ns := l `mod` second in
  let s := l / second in
  let sod := s `mod` 86400 in
  let '(y, m, d) := civil (s / 86400) in
  if (0 <=? y) && (y <=? 9999) then
    Some (dec_fixed 4 y +:+ "-" +:+ dec_fixed 2 m +:+ "-" +:+ dec_fixed 2 d +:+ "T" +:+
          dec_fixed 2 (sod / 3600) +:+ ":" +:+ dec_fixed 2 ((sod / 60) `mod` 60) +:+ ":" +:+ dec_fixed 2 (sod `mod` 60) +:+
          (if ns =? 0 then "" else "." +:+ trim0 (dec_fixed 9 ns)) +:+ zone_text off)
  else None.

Definition fixed (k : nat) (s : string) : option (Z * string) :=
  let '(a, b) := split_at k s in
  if all_digits a && (String.length a =? k)%nat then Some (nat_value 0 a, b) else None.
Definition lit (c : ascii) (s : string) : option string :=
  match s with String c' s' => if Ascii.eqb c c' then Some s' else None | EmptyString => None end.
Definition upto (lo hi n : Z) : option unit := if (lo <=? n) && (n <=? hi) then Some () else None.
Definition parse_zone (s : string) : option Z :=
  match s with
  | String c s' =>
      if Ascii.eqb c "Z" then match s' with EmptyString => Some 0 | _ => None end
      else if Ascii.eqb c "+" || Ascii.eqb c "-" then
        h ←o fixed 2 s'; s2 ←o lit ":" h.2; m ←o fixed 2 s2;
        _ ←o upto 0 24 h.1; _ ←o upto 0 59 m.1;
        match m.2 with
        | EmptyString => Some (let n := h.1 * 60 + m.1 in if Ascii.eqb c "-" then - n else n)
        | _ => None
        end
      else None
  | EmptyString => None
  end.
(** Time.UnmarshalJSON, between the quotes: the instant and the zone *)
Definition parse_time (s : string) : option (Z * Z) :=
  y ←o fixed 4 s; s ←o lit "-" y.2; m ←o fixed 2 s; s ←o lit "-" m.2; d ←o fixed 2 s; s ←o lit "T" d.2;
  h ←o fixed 2 s; s ←o lit ":" h.2; mi ←o fixed 2 s; s ←o lit ":" mi.2; sec ←o fixed 2 s;
  _ ←o upto 1 12 m.1;
  _ ←o upto 1 (nth (Z.to_nat (m.1 - 1)) (month_lengths (leap y.1)) 0) d.1;
  _ ←o upto 0 23 h.1; _ ←o upto 0 59 mi.1; _ ←o upto 0 59 sec.1;
  nz ←o match sec.2 with
        | String c s' =>
            if Ascii.eqb c "." then
              let '(f, r) := digits s' in
              match f with
              | EmptyString => None
              | _ => Some (nat_value 0 (fst (split_at 9 (f +:+ zeros 9))), r)
              end
            else Some (0, sec.2)
        | EmptyString => Some (0, sec.2)
        end;
  off ←o parse_zone nz.2;
  Some (((days_of y.1 m.1 d.1 * 86400 + h.1 * 3600 + mi.1 * 60 + sec.1) - off * 60) * second + nz.1, off).
