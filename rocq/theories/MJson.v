(** * encoding/json and fmt.Fprintf, as far as /repo uses them

    Nothing here models a function of /repo.  A JSON document is a tree; a
    number keeps its spelling.  [compact] is what json.Marshal writes,
    [indented] what json.MarshalIndent(_, "", "\t") writes, [parse_json] is the
    parser of json.Unmarshal.

    Simplifications: no nesting limit (Go stops at 10000); versions of Go
    differ in the spelling of the control characters 8 and 12. *)
From Verif Require Export MUtf8 MFmt.

Inductive json :=
  | JNull
  | JBool (b : bool)
  | JNum (lit : string)
  | JStr (s : string)
  | JArr (l : list json)
  | JObj (l : list (string * json)).

(** utf8.AppendRune for a rune that is a scalar value *)
Definition enc_rune (r : Z) : string :=
  if r <? 128 then String (zchar r) ""
  else if r <? 2048 then String (zchar (192 + r / 64)) (String (zchar (128 + r `mod` 64)) "")
  else if r <? 65536 then
    String (zchar (224 + r / 4096)) (String (zchar (128 + (r / 64) `mod` 64)) (String (zchar (128 + r `mod` 64)) ""))
  else
    String (zchar (240 + r / 262144)) (String (zchar (128 + (r / 4096) `mod` 64))
      (String (zchar (128 + (r / 64) `mod` 64)) (String (zchar (128 + r `mod` 64)) ""))).

(** ** strings *)
Definition dquote : ascii := zchar 34.
Definition backslash : ascii := zchar 92.
Definition hex_lower (n : Z) : ascii := if n <? 10 then zchar (48 + n) else zchar (87 + n).
Definition u_escape (r : Z) : string :=
  String backslash (String "u" (String (hex_lower (r / 4096)) (String (hex_lower ((r / 256) `mod` 16))
    (String (hex_lower ((r / 16) `mod` 16)) (String (hex_lower (r `mod` 16)) ""))))).

(** a byte below 128, with EscapeHTML on *)
Definition escape_ascii (c : ascii) : string :=
  let n := zcode c in
  if n =? 34 then String backslash (String dquote "")
  else if n =? 92 then String backslash (String backslash "")
  else if n =? 10 then String backslash "n"
  else if n =? 13 then String backslash "r"
  else if n =? 9 then String backslash "t"
  else if (n <? 32) || (n =? 60) || (n =? 62) || (n =? 38) then u_escape n
  else String c "".

(** the text between the quotes; an invalid byte becomes the escape of U+FFFD *)
Fixpoint escape_fuel (fuel : nat) (s : string) : string :=
  match fuel with
  | O => ""
  | S f =>
      match s with
      | EmptyString => ""
      | String c s' =>
          if zcode c <? 128 then escape_ascii c +:+ escape_fuel f s'
          else
            let '(r, rest) := decode_rune c s' in
            (if (r =? rune_error) && bool_decide (rest = s') then u_escape rune_error
             else if (r =? 8232) || (r =? 8233) then u_escape r
             else enc_rune r) +:+ escape_fuel f rest
      end
  end.
Definition quote (s : string) : string :=
  String dquote (escape_fuel (String.length s) s +:+ String dquote "").

Definition unhex4 (a b c d : ascii) : option Z :=
  let h c := if within 48 57 c then Some (zcode c - 48)
             else if within 97 102 c then Some (zcode c - 87)
             else if within 65 70 c then Some (zcode c - 55)
             else None in
  match h a, h b, h c, h d with
  | Some x, Some y, Some z, Some t => Some (4096 * x + 256 * y + 16 * z + t)
  | _, _, _, _ => None
  end.

(** the rune of a [\u] escape, and what follows: a surrogate pair is one rune,
    a lone surrogate is U+FFFD *)
Definition u_rune (r : Z) (s : string) : Z * string :=
  if (55296 <=? r) && (r <=? 57343) then
    match s with
    | String b (String u (String a1 (String a2 (String a3 (String a4 s'))))) =>
        match (if Ascii.eqb b backslash && Ascii.eqb u "u" then unhex4 a1 a2 a3 a4 else None) with
        | Some r2 =>
            if (r <? 56320) && (56320 <=? r2) && (r2 <=? 57343)
            then ((r - 55296) * 1024 + (r2 - 56320) + 65536, s')
            else (rune_error, s)
        | None => (rune_error, s)
        end
    | _ => (rune_error, s)
    end
  else (r, s).

(** from behind the opening quote: the string and what follows the closing
    quote *)
Fixpoint unquote_fuel (fuel : nat) (s : string) : option (string * string) :=
  match fuel with
  | O => None
  | S f =>
      match s with
      | EmptyString => None
      | String c s' =>
          let n := zcode c in
          let out t rest := match unquote_fuel f rest with Some (u, rest') => Some (t +:+ u, rest') | None => None end in
          if n =? 34 then Some ("", s')
          else if n =? 92 then
            match s' with
            | EmptyString => None
            | String e s2 =>
                let m := zcode e in
                if (m =? 34) || (m =? 92) || (m =? 47) then out (String e "") s2
                else if m =? 98 then out (String (zchar 8) "") s2
                else if m =? 102 then out (String (zchar 12) "") s2
                else if m =? 110 then out (String (zchar 10) "") s2
                else if m =? 114 then out (String (zchar 13) "") s2
                else if m =? 116 then out (String (zchar 9) "") s2
                else if m =? 117 then
                  match s2 with
                  | String a1 (String a2 (String a3 (String a4 s3))) =>
                      match unhex4 a1 a2 a3 a4 with
                      | Some r => let '(r', rest) := u_rune r s3 in out (enc_rune r') rest
                      | None => None
                      end
                  | _ => None
                  end
                else None
            end
          else if n <? 32 then None
          else let '(r, rest) := decode_rune c s' in out (enc_rune r) rest
      end
  end.
Definition unquote (s : string) : option (string * string) := unquote_fuel (String.length s) s.

(** ** numbers *)
Definition is_digit (c : ascii) : bool := within 48 57 c.
Fixpoint digits (s : string) : string * string :=
  match s with
  | String c s' => if is_digit c then let '(a, b) := digits s' in (String c a, b) else ("", s)
  | EmptyString => ("", "")
  end.
(** the number at the start of a text, by the JSON grammar, and what follows it *)
Definition number (s : string) : option (string * string) :=
  let '(sign, s) := match s with String c s' => if Ascii.eqb c "-" then ("-", s') else ("", s) | _ => ("", s) end in
  let '(ip, s1) :=
    match s with
    | String c s' => if Ascii.eqb c "0" then ("0", s') else digits s
    | EmptyString => ("", s)
    end in
  match ip with
  | EmptyString => None
  | _ =>
    let frac :=
      match s1 with
      | String c s' =>
          if Ascii.eqb c "." then
            let '(d, r) := digits s' in match d with EmptyString => None | _ => Some ("." +:+ d, r) end
          else Some ("", s1)
      | EmptyString => Some ("", s1)
      end in
    match frac with
    | None => None
    | Some (fp, s2) =>
      match s2 with
      | String c s' =>
          if Ascii.eqb c "e" || Ascii.eqb c "E" then
            let '(sg, s3) := match s' with
                             | String c2 s'' => if Ascii.eqb c2 "+" || Ascii.eqb c2 "-" then (String c2 "", s'') else ("", s')
                             | EmptyString => ("", s') end in
            let '(d, r) := digits s3 in
            match d with
            | EmptyString => None
            | _ => Some (sign +:+ ip +:+ fp +:+ String c "" +:+ sg +:+ d, r)
            end
          else Some (sign +:+ ip +:+ fp, s2)
      | EmptyString => Some (sign +:+ ip +:+ fp, s2)
      end
    end
  end.

(** ** printing *)
Fixpoint compact (v : json) : string :=
  match v with
  | JNull => "null"
  | JBool b => if b then "true" else "false"
  | JNum lit => lit
  | JStr s => quote s
  | JArr l =>
      "[" +:+ (fix elems l := match l with
                              | [] => ""
                              | x :: l' => compact x +:+ (match l' with [] => "" | _ => "," end) +:+ elems l'
                              end) l +:+ "]"
  | JObj l =>
      "{" +:+ (fix mems l := match l with
                             | [] => ""
                             | (k, x) :: l' => quote k +:+ ":" +:+ compact x +:+ (match l' with [] => "" | _ => "," end) +:+ mems l'
                             end) l +:+ "}"
  end.

Definition tab : ascii := zchar 9.
Fixpoint tabs (n : nat) : string := match n with O => "" | S n => String tab (tabs n) end.
Definition newline_at (depth : nat) : string := nl +:+ tabs depth.

Fixpoint indented (depth : nat) (v : json) : string :=
  match v with
  | JArr (x :: l) =>
      "[" +:+ (fix elems l := match l with
                              | [] => ""
                              | x :: l' => newline_at (S depth) +:+ indented (S depth) x +:+ (match l' with [] => "" | _ => "," end) +:+ elems l'
                              end) (x :: l) +:+ newline_at depth +:+ "]"
  | JObj (kx :: l) =>
      "{" +:+ (fix mems l := match l with
                             | [] => ""
                             | (k, x) :: l' => newline_at (S depth) +:+ quote k +:+ ": " +:+ indented (S depth) x +:+
                                               (match l' with [] => "" | _ => "," end) +:+ mems l'
                             end) (kx :: l) +:+ newline_at depth +:+ "}"
  | _ => compact v
  end.

(** ** parsing *)
Definition is_space (c : ascii) : bool := (zcode c =? 32) || (zcode c =? 9) || (zcode c =? 10) || (zcode c =? 13).
Fixpoint skip (s : string) : string :=
  match s with
  | String c s' => if is_space c then skip s' else s
  | EmptyString => s
  end.
(** the text after a given prefix *)
Fixpoint after (p s : string) : option string :=
  match p, s with
  | EmptyString, _ => Some s
  | String c p', String c' s' => if Ascii.eqb c c' then after p' s' else None
  | String _ _, EmptyString => None
  end.

Fixpoint p_value (fuel : nat) (s : string) : option (json * string) :=
  match fuel with
  | O => None
  | S f =>
      let s := skip s in
      match s with
      | EmptyString => None
      | String c s' =>
          if Ascii.eqb c "{" then
            match skip s' with
            | String c2 r => if Ascii.eqb c2 "}" then Some (JObj [], r)
                             else match p_members f (String c2 r) with Some (l, r') => Some (JObj l, r') | None => None end
            | EmptyString => None
            end
          else if Ascii.eqb c "[" then
            match skip s' with
            | String c2 r => if Ascii.eqb c2 "]" then Some (JArr [], r)
                             else match p_elements f (String c2 r) with Some (l, r') => Some (JArr l, r') | None => None end
            | EmptyString => None
            end
          else if Ascii.eqb c dquote then
            match unquote s' with Some (t, r) => Some (JStr t, r) | None => None end
          else match after "null" s with
               | Some r => Some (JNull, r)
               | None =>
                   match after "true" s with
                   | Some r => Some (JBool true, r)
                   | None =>
                       match after "false" s with
                       | Some r => Some (JBool false, r)
                       | None => match number s with Some (lit, r) => Some (JNum lit, r) | None => None end
                       end
                   end
               end
      end
  end
with p_elements (fuel : nat) (s : string) : option (list json * string) :=
  match fuel with
  | O => None
  | S f =>
      match p_value f s with
      | None => None
      | Some (x, r) =>
          match skip r with
          | String c r' =>
              if Ascii.eqb c "]" then Some ([x], r')
              else if Ascii.eqb c "," then match p_elements f r' with Some (l, r'') => Some (x :: l, r'') | None => None end
              else None
          | EmptyString => None
          end
      end
  end
with p_members (fuel : nat) (s : string) : option (list (string * json) * string) :=
  match fuel with
  | O => None
  | S f =>
      match skip s with
      | String q s' =>
          if Ascii.eqb q dquote then
            match unquote s' with
            | None => None
            | Some (k, r) =>
                match skip r with
                | String c r' =>
                    if Ascii.eqb c ":" then
                      match p_value f r' with
                      | None => None
                      | Some (x, r2) =>
                          match skip r2 with
                          | String c2 r3 =>
                              if Ascii.eqb c2 "}" then Some ([(k, x)], r3)
                              else if Ascii.eqb c2 "," then match p_members f r3 with Some (l, r4) => Some ((k, x) :: l, r4) | None => None end
                              else None
                          | EmptyString => None
                          end
                      end
                    else None
                | EmptyString => None
                end
            end
          else None
      | EmptyString => None
      end
  end.

Definition parse_json (s : string) : option json :=
  match p_value (S (S (String.length s))) s with
  | Some (v, r) => match skip r with EmptyString => Some v | _ => None end
  | None => None
  end.

(** ** fmt.Fprintf(w, format) without operands

    doPrintf of fmt/print.go: flags, [argument index], width, precision, verb. *)
Definition is_flag (c : ascii) : bool :=
  Ascii.eqb c "#" || Ascii.eqb c "0" || Ascii.eqb c "+" || Ascii.eqb c "-" || Ascii.eqb c " ".
Fixpoint skip_flags (s : string) : string :=
  match s with
  | String c s' => if is_flag c then skip_flags s' else s
  | EmptyString => s
  end.
(** parsenum: the width or precision at the start of a text; more than seven
    digits or so are an overflow, which swallows the rest *)
Fixpoint parse_num (num : Z) (isnum : bool) (s : string) : bool * string :=
  match s with
  | String c s' =>
      if is_digit c then
        if 1000000 <? num then (false, "") else parse_num (num * 10 + (zcode c - 48)) true s'
      else (isnum, s)
  | EmptyString => (isnum, s)
  end.
Fixpoint cut_bracket (s : string) : option (string * string) :=
  match s with
  | String c s' =>
      if Ascii.eqb c "]" then Some ("", s')
      else match cut_bracket s' with Some (a, b) => Some (String c a, b) | None => None end
  | EmptyString => None
  end.
(** argNumber with no operands: an index is never good.  Returns whether the
    argument number is still good, whether an index was read, and what follows. *)
Definition arg_number (s : string) : bool * bool * string :=
  match s with
  | String c s' =>
      if Ascii.eqb c "[" then
        match cut_bracket s' with
        | Some (d, r) =>
            if (String.length s <? 3)%nat then (false, false, s')
            else let '(isnum, d') := parse_num 0 false d in
                 (false, isnum && bool_decide (d' = ""), r)
        | None => (false, false, s')
        end
      else (true, false, s)
  | EmptyString => (true, false, s)
  end.

(** one directive, from behind its [%]: what is written, and what follows *)
Definition directive (s : string) : string * string :=
  let s := skip_flags s in
  let '(good1, idx1, s) := arg_number s in
  let '(out1, good2, idx2, s) :=
    match s with
    | String "*" s' => ("%!(BADWIDTH)", good1, false, s')
    | _ => let '(isnum, s') := parse_num 0 false s in ("", good1 && negb (idx1 && isnum), idx1, s')
    end in
  let '(out2, good3, idx3, s) :=
    match s with
    | String "." s' =>
        let '(g, idx, s') := arg_number s' in
        let good := good2 && negb idx2 && g in
        match s' with
        | String "*" s'' => (out1 +:+ "%!(BADPREC)", good, false, s'')
        | _ => (out1, good, idx, snd (parse_num 0 false s'))
        end
    | _ => (out1, good2, idx2, s)
    end in
  let '(good4, s) := if idx3 then (good3, s) else let '(g, _, s') := arg_number s in (good3 && g, s') in
  match s with
  | EmptyString => (out2 +:+ "%!(NOVERB)", "")
  | String c s' =>
      let '(r, rest) := decode_rune c s' in
      (out2 +:+ (if r =? 37 then "%"
                 else if negb good4 then "%!" +:+ enc_rune r +:+ "(BADINDEX)"
                 else "%!" +:+ enc_rune r +:+ "(MISSING)"), rest)
  end.
Fixpoint fprintf_fuel (fuel : nat) (s : string) : string :=
  match fuel with
  | O => ""
  | S f =>
      match s with
      | EmptyString => ""
      | String c s' =>
          if Ascii.eqb c "%" then let '(o, rest) := directive s' in o +:+ fprintf_fuel f rest
          else String c (fprintf_fuel f s')
      end
  end.
(** fmt.Fprintf(w, s) *)
Definition fprintf0 (s : string) : string := fprintf_fuel (String.length s) s.
