(** * JSON texts (RFC 8259), as a grammar *)
From Verif Require Export SUtf8 MJson.

(** white space *)
Definition blank (s : string) : Prop :=
  Forall (λ c, c ∈ [" "; zchar 9; zchar 10; zchar 13]%char) (list_ascii_of_string s).

(** ** numbers *)
Definition digits_only (s : string) : Prop :=
  s ≠ "" ∧ Forall (λ c, c ∈ list_ascii_of_string "0123456789") (list_ascii_of_string s).
Definition int_part (s : string) : Prop := s = "0" ∨ (digits_only s ∧ ∀ t, s ≠ String "0" t).
Definition frac_part (s : string) : Prop := s = "" ∨ ∃ d, s = "." +:+ d ∧ digits_only d.
Definition exp_part (s : string) : Prop :=
  s = "" ∨ ∃ e sg d, s = e +:+ sg +:+ d ∧ e ∈ ["e"; "E"] ∧ sg ∈ [""; "+"; "-"] ∧ digits_only d.
Definition number_text (s : string) : Prop :=
  ∃ sg ip fp ep, s = sg +:+ ip +:+ fp +:+ ep ∧ sg ∈ [""; "-"] ∧ int_part ip ∧ frac_part fp ∧ exp_part ep.

(** ** strings *)
(** a hexadecimal digit and its value *)
Definition hex (c : ascii) (n : Z) : Prop :=
  ∃ i, n = Z.of_nat i ∧ (String.get i "0123456789abcdef" = Some c ∨ String.get i "0123456789ABCDEF" = Some c).
Definition hex4 (s : string) (n : Z) : Prop :=
  ∃ a b c d x y z t, s = String a (String b (String c (String d ""))) ∧
    hex a x ∧ hex b y ∧ hex c z ∧ hex d t ∧ n = ((x * 16 + y) * 16 + z) * 16 + t.
Definition bs : string := String (zchar 92) "".
(** one character and a spelling of it *)
Inductive spelled : Z → string → Prop :=
  | Sp_plain r : scalar r → 32 ≤ r → r ≠ 34 → r ≠ 92 → spelled r (utf8 r)
  | Sp_short r c : (r, c) ∈ [(34, String (zchar 34) ""); (92, bs); (47, "/"); (8, "b"); (12, "f"); (10, "n"); (13, "r"); (9, "t")] →
      spelled r (bs +:+ c)
  | Sp_hex r h : hex4 h r → scalar r → spelled r (bs +:+ "u" +:+ h)
  | Sp_pair r h1 h2 hi lo : hex4 h1 hi → hex4 h2 lo → 55296 ≤ hi < 56320 → 56320 ≤ lo < 57344 →
      r = 65536 + (hi - 55296) * 1024 + (lo - 56320) → spelled r (bs +:+ "u" +:+ h1 +:+ bs +:+ "u" +:+ h2).
Definition dq : string := String (zchar 34) "".
Definition string_text (s t : string) : Prop :=
  ∃ l, Forall (λ rs, spelled rs.1 rs.2) l ∧ s = str_concat (map (λ rs, utf8 rs.1) l) ∧ t = dq +:+ str_concat (map snd l) +:+ dq.

(** ** values: [json_text v t], the text [t] denotes [v] *)
Inductive value_text : json → string → Prop :=
  | Vt_null : value_text JNull "null"
  | Vt_true : value_text (JBool true) "true"
  | Vt_false : value_text (JBool false) "false"
  | Vt_num lit : number_text lit → value_text (JNum lit) lit
  | Vt_str s t : string_text s t → value_text (JStr s) t
  | Vt_arr0 w : blank w → value_text (JArr []) ("[" +:+ w +:+ "]")
  | Vt_arr l t : elements_text l t → value_text (JArr l) ("[" +:+ t +:+ "]")
  | Vt_obj0 w : blank w → value_text (JObj []) ("{" +:+ w +:+ "}")
  | Vt_obj l t : members_text l t → value_text (JObj l) ("{" +:+ t +:+ "}")
with elements_text : list json → string → Prop :=
  | Et_one v t w1 w2 : blank w1 → value_text v t → blank w2 → elements_text [v] (w1 +:+ t +:+ w2)
  | Et_more v t w1 w2 l u : blank w1 → value_text v t → blank w2 → elements_text l u →
      elements_text (v :: l) (w1 +:+ t +:+ w2 +:+ "," +:+ u)
with members_text : list (string * json) → string → Prop :=
  | Mt_one k kt v t w1 w2 w3 w4 : blank w1 → string_text k kt → blank w2 → blank w3 → value_text v t → blank w4 →
      members_text [(k, v)] (w1 +:+ kt +:+ w2 +:+ ":" +:+ w3 +:+ t +:+ w4)
  | Mt_more k kt v t w1 w2 w3 w4 l u : blank w1 → string_text k kt → blank w2 → blank w3 → value_text v t → blank w4 → members_text l u →
      members_text ((k, v) :: l) (w1 +:+ kt +:+ w2 +:+ ":" +:+ w3 +:+ t +:+ w4 +:+ "," +:+ u).
Definition json_text (v : json) (t : string) : Prop :=
  ∃ w1 w2 t', t = w1 +:+ t' +:+ w2 ∧ blank w1 ∧ blank w2 ∧ value_text v t'.

(** ** well-formed trees *)
(** [coerced s t]: [t] is [s] with U+FFFD for each invalid byte *)
Definition coerced (s t : string) : Prop := ∃ rs, reads s rs ∧ t = str_concat (map utf8 rs).
Inductive jcoerced : json → json → Prop :=
  | Jc_null : jcoerced JNull JNull
  | Jc_bool b : jcoerced (JBool b) (JBool b)
  | Jc_num lit : number_text lit → jcoerced (JNum lit) (JNum lit)
  | Jc_str s t : coerced s t → jcoerced (JStr s) (JStr t)
  | Jc_arr l l' : Forall2 jcoerced l l' → jcoerced (JArr l) (JArr l')
  | Jc_obj l l' : Forall2 (λ a b, coerced a.1 b.1 ∧ jcoerced a.2 b.2) l l' → jcoerced (JObj l) (JObj l').

(** ** without directives for Fprintf *)
Definition no_percent (s : string) : Prop := Forall (λ c, c ≠ "%"%char) (list_ascii_of_string s).
(** trees whose strings all satisfy [P] and whose numbers are numbers *)
Inductive jall (P : string → Prop) : json → Prop :=
  | Ja_null : jall P JNull
  | Ja_bool b : jall P (JBool b)
  | Ja_num s : number_text s → jall P (JNum s)
  | Ja_str s : P s → jall P (JStr s)
  | Ja_arr l : Forall (jall P) l → jall P (JArr l)
  | Ja_obj l : Forall (λ kv, P kv.1 ∧ jall P kv.2) l → jall P (JObj l).
