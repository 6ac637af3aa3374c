(** * Proofs about JSON: the parser accepts the grammar *)
From Verif Require Import SJson PUtf8 PWriter.

Lemma enc_rune_utf8 r : enc_rune r = utf8 r.
Proof.
  unfold enc_rune, utf8. destruct (Z.ltb_spec r 128); [by rewrite decide_True|]. rewrite decide_False by lia.
  destruct (Z.ltb_spec r 2048); [by rewrite decide_True|]. rewrite decide_False by lia.
  destruct (Z.ltb_spec r 65536); [by rewrite decide_True|]. by rewrite decide_False by lia.
Qed.
Lemma slen_app (a b : string) : String.length (a +:+ b) = (String.length a + String.length b)%nat.
Proof. induction a as [|x a IH]; [done|]. rewrite sapp_cons. cbn [String.length]. rewrite IH. done. Qed.
Lemma sapp_one x (s : string) : String x "" +:+ s = String x s.
Proof. done. Qed.

(** ** blanks *)
Lemma blank_nil : blank "".
Proof. constructor. Qed.
Lemma is_space_spec c : is_space c = true ↔ c ∈ [" "; zchar 9; zchar 10; zchar 13]%char.
Proof.
  rewrite !elem_of_cons, elem_of_nil. split.
  - unfold is_space. rewrite !orb_true_iff, !Z.eqb_eq. intros [[[E|E]|E]|E]; rewrite <-(zchar_zcode c), E; tauto.
  - intros [->|[->|[->|[->|[]]]]]; done.
Qed.
Lemma skip_blank w s : blank w → skip (w +:+ s) = skip s.
Proof.
  unfold blank. induction w as [|c w IH]; [done|]. cbn [list_ascii_of_string]. intros H. inversion H as [|? ? Hc Hw]; subst.
  rewrite sapp_cons. cbn [skip]. apply is_space_spec in Hc. rewrite Hc. auto.
Qed.
Lemma skip_stop c s : is_space c = false → skip (String c s) = String c s.
Proof. intros H. cbn. by rewrite H. Qed.

(** ** digits *)
Lemma is_digit_spec c : is_digit c = true ↔ c ∈ list_ascii_of_string "0123456789".
Proof.
  cbn [list_ascii_of_string]. rewrite !elem_of_cons, elem_of_nil. unfold is_digit. rewrite within_spec. split.
  - intros H. assert (zcode c = 48 ∨ zcode c = 49 ∨ zcode c = 50 ∨ zcode c = 51 ∨ zcode c = 52 ∨ zcode c = 53 ∨ zcode c = 54 ∨ zcode c = 55 ∨ zcode c = 56 ∨ zcode c = 57) as Hc by lia.
    repeat destruct Hc as [Hc|Hc]; rewrite <-(zchar_zcode c), Hc; tauto.
  - intros H. repeat destruct H as [->|H]; try done.
Qed.
(** the text is over, or something follows that is no part of a number *)
Definition numchar (c : ascii) : bool := is_digit c || Ascii.eqb c "." || Ascii.eqb c "e" || Ascii.eqb c "E".
Definition stops (s : string) : Prop := match s with EmptyString => True | String c _ => numchar c = false end.
Lemma digits_app d rest : Forall (λ c, c ∈ list_ascii_of_string "0123456789") (list_ascii_of_string d) →
  (∀ c s, rest = String c s → is_digit c = false) → digits (d +:+ rest) = (d, rest).
Proof.
  intros Hd Hr. induction d as [|c d IH].
  - destruct rest as [|c s]; [done|]. change ("" +:+ String c s) with (String c s). cbn [digits]. by rewrite (Hr c s).
  - inversion Hd as [|? ? Hc Hw]; subst. rewrite sapp_cons. cbn [digits]. apply is_digit_spec in Hc. rewrite Hc, IH by done. done.
Qed.
Lemma numchar_digit c : numchar c = false → is_digit c = false ∧ Ascii.eqb c "." = false ∧ Ascii.eqb c "e" = false ∧ Ascii.eqb c "E" = false.
Proof. unfold numchar. rewrite !orb_false_iff. tauto. Qed.

(** the three tails of a number *)
Definition exp_of (s2 : string) : option (string * string) :=
  match s2 with
  | String c s' =>
      if Ascii.eqb c "e" || Ascii.eqb c "E" then
        let '(sg, s3) := match s' with
                         | String c2 s'' => if Ascii.eqb c2 "+" || Ascii.eqb c2 "-" then (String c2 "", s'') else ("", s')
                         | EmptyString => ("", s') end in
        let '(d, r) := digits s3 in
        match d with
        | EmptyString => None
        | _ => Some (String c "" +:+ sg +:+ d, r)
        end
      else Some ("", s2)
  | EmptyString => Some ("", s2)
  end.
Lemma exp_of_ok ep rest : exp_part ep → stops rest → exp_of (ep +:+ rest) = Some (ep, rest).
Proof.
  intros [->|(e&sg&d&->&He&Hs&Hd)] Hr.
  - change ("" +:+ rest) with rest. destruct rest as [|c s]; [done|]. cbn in Hr. apply numchar_digit in Hr as (?&?&H1&H2).
    unfold exp_of. by rewrite H1, H2.
  - assert (Hstop : ∀ c s, rest = String c s → is_digit c = false).
    { intros c s ->. cbn in Hr. by apply numchar_digit in Hr as (?&?). }
    assert (∃ c, e = String c "" ∧ (Ascii.eqb c "e" || Ascii.eqb c "E") = true) as (c&->&Hc).
    { rewrite !elem_of_cons, elem_of_nil in He. destruct He as [->|[->|[]]]; eauto. }
    destruct Hd as [Hne Hd]. rewrite !sapp_assoc, sapp_one. unfold exp_of. rewrite Hc.
    destruct d as [|d0 d]; [done|].
    assert (Hd0 : is_digit d0 = true). { inversion Hd as [|? ? Hc0 Hw]; subst. by apply is_digit_spec. }
    assert (Hpm : (Ascii.eqb d0 "+" || Ascii.eqb d0 "-") = false).
    { destruct (Ascii.eqb_spec d0 "+") as [->|]; [done|]. destruct (Ascii.eqb_spec d0 "-") as [->|]; done. }
    rewrite !elem_of_cons, elem_of_nil in Hs. destruct Hs as [->|[->|[->|[]]]].
    + change ("" +:+ String d0 d +:+ rest) with (String d0 (d +:+ rest)). cbv beta iota. rewrite Hpm.
      change (String d0 (d +:+ rest)) with (String d0 d +:+ rest). rewrite digits_app by done. done.
    + rewrite sapp_one. cbv beta iota. cbn [Ascii.eqb Bool.eqb orb]. rewrite digits_app by done. done.
    + rewrite sapp_one. cbv beta iota. cbn [Ascii.eqb Bool.eqb orb]. rewrite digits_app by done. done.
Qed.
Definition frac_of (s1 : string) : option (string * string) :=
  match s1 with
  | String c s' =>
      if Ascii.eqb c "." then
        let '(d, r) := digits s' in match d with EmptyString => None | _ => Some ("." +:+ d, r) end
      else Some ("", s1)
  | EmptyString => Some ("", s1)
  end.
Lemma exp_head ep rest : exp_part ep → stops rest → ∀ c s, ep +:+ rest = String c s → is_digit c = false ∧ Ascii.eqb c "." = false.
Proof.
  intros [->|(e&sg&d&->&He&Hs&Hd)] Hr c s E.
  - change ("" +:+ rest) with rest in E. subst rest. cbn in Hr. by apply numchar_digit in Hr as (?&?&?).
  - rewrite !sapp_assoc in E. rewrite !elem_of_cons, elem_of_nil in He. destruct He as [->|[->|[]]]; rewrite sapp_one in E; injection E as <- _; done.
Qed.
Lemma frac_of_ok fp ep rest : frac_part fp → exp_part ep → stops rest → frac_of (fp +:+ ep +:+ rest) = Some (fp, ep +:+ rest).
Proof.
  intros Hf He Hr. pose proof (exp_head _ _ He Hr) as Hh.
  destruct Hf as [->|(d&->&Hne&Hd)].
  - change ("" +:+ ep +:+ rest) with (ep +:+ rest). unfold frac_of. destruct (ep +:+ rest) as [|c s] eqn:E; [done|].
    destruct (Hh c s eq_refl) as [_ ->]. done.
  - rewrite sapp_assoc, sapp_one. unfold frac_of. cbn [Ascii.eqb Bool.eqb]. rewrite digits_app; [by destruct d|done|].
    intros c s E. by destruct (Hh c s E).
Qed.
Definition int_of (s : string) : string * string :=
  match s with
  | String c s' => if Ascii.eqb c "0" then ("0", s') else digits s
  | EmptyString => ("", s)
  end.
Lemma int_of_ok ip rest : int_part ip → (∀ c s, rest = String c s → is_digit c = false) → int_of (ip +:+ rest) = (ip, rest).
Proof.
  intros [->|[[Hne Hd] H0]] Hr; [done|]. destruct ip as [|c ip]; [done|]. rewrite sapp_cons. unfold int_of.
  destruct (Ascii.eqb_spec c "0") as [->|]; [by destruct (H0 ip)|]. rewrite <-sapp_cons. by apply digits_app.
Qed.
Definition sign_of (s : string) : string * string :=
  match s with String c s' => if Ascii.eqb c "-" then ("-", s') else ("", s) | _ => ("", s) end.
Lemma number_eq s : number s =
  match (sign_of s) with (sg, s0) =>
    match int_of s0 with
    | (EmptyString, _) => None
    | (ip, s1) => match frac_of s1 with
                  | None => None
                  | Some (fp, s2) => match exp_of s2 with None => None | Some (ep, r) => Some (sg +:+ ip +:+ fp +:+ ep, r) end
                  end
    end
  end.
Proof.
  unfold number. change (match s with String c s' => if Ascii.eqb c "-" then ("-", s') else ("", s) | "" => ("", s) end) with (sign_of s).
  destruct (sign_of s) as [sg s0].
  change (match s0 with String c s' => if Ascii.eqb c "0" then ("0", s') else digits s0 | "" => ("", s0) end) with (int_of s0).
  destruct (int_of s0) as [ip s1]. destruct ip as [|i0 ip]; [done|]. fold (frac_of s1). destruct (frac_of s1) as [[fp s2]|]; [|done].
  unfold exp_of. destruct s2 as [|c s']; [by rewrite sapp_nil_r|]. destruct (_ || _); [|by rewrite sapp_nil_r].
  destruct (match s' with String c2 s'' => _ | "" => _ end) as [sg2 s3]. destruct (digits s3) as [d r]. destruct d; done.
Qed.
Lemma number_ok lit rest : number_text lit → stops rest → number (lit +:+ rest) = Some (lit, rest).
Proof.
  intros (sg&ip&fp&ep&->&Hs&Hi&Hf&He) Hr. rewrite number_eq, !sapp_assoc.
  assert (Hsg : sign_of (sg +:+ ip +:+ fp +:+ ep +:+ rest) = (sg, ip +:+ fp +:+ ep +:+ rest)).
  { rewrite !elem_of_cons, elem_of_nil in Hs. destruct Hs as [->|[->|[]]]; [|done]. change ("" +:+ ip +:+ ?x) with (ip +:+ x).
    assert (∃ c t, ip = String c t ∧ is_digit c = true) as (c&t&->&Hc).
    { destruct Hi as [->|[[Hne Hd] _]]; [by eexists _, _|]. destruct ip as [|c t]; [done|]. eexists _, _. split; [done|].
      inversion Hd; subst. by apply is_digit_spec. }
    rewrite sapp_cons. unfold sign_of. destruct (Ascii.eqb_spec c "-") as [->|]; [done|]. done. }
  rewrite Hsg, int_of_ok; [|done|].
  2:{ intros c s E. destruct Hf as [->|(d&->&Hd)].
      - change ("" +:+ ep +:+ rest) with (ep +:+ rest) in E. by destruct (exp_head _ _ He Hr c s E).
      - rewrite sapp_assoc, sapp_one in E. by injection E as <- _. }
  destruct ip as [|i0 ip]; [destruct Hi as [?|[[? _] _]]; done|].
  rewrite frac_of_ok by done. rewrite exp_of_ok by done. done.
Qed.
Lemma number_text_head lit : number_text lit → ∃ c t, lit = String c t ∧ (is_digit c = true ∨ c = "-"%char).
Proof.
  intros (sg&ip&fp&ep&->&Hs&Hi&_). rewrite !elem_of_cons, elem_of_nil in Hs. destruct Hs as [->|[->|[]]].
  - assert (∃ c t, ip = String c t ∧ is_digit c = true) as (c&t&->&Hc).
    { destruct Hi as [->|[[Hne Hd] _]]; [by eexists _, _|]. destruct ip as [|c t]; [done|]. eexists _, _. split; [done|].
      inversion Hd; subst. by apply is_digit_spec. }
    change ("" +:+ String c t +:+ ?x) with (String c (t +:+ x)). eexists _, _. split; [done|by left].
  - rewrite sapp_one. eexists _, _. split; [done|by right].
Qed.

(** ** strings *)
Lemma get_lt (s : string) i c : String.get i s = Some c → (i < String.length s)%nat.
Proof. revert i. induction s as [|x s IH]; intros i H; [by destruct i|]. destruct i; cbn in *; [lia|]. apply IH in H. lia. Qed.
Lemma unhex4_ok a b c d x y z t : hex a x → hex b y → hex c z → hex d t → unhex4 a b c d = Some (((x * 16 + y) * 16 + z) * 16 + t).
Proof.
  set (h := λ c, if within 48 57 c then Some (zcode c - 48) else if within 97 102 c then Some (zcode c - 87) else if within 65 70 c then Some (zcode c - 55) else None).
  assert (H : ∀ c n, hex c n → h c = Some n).
  { intros c' n (i&->&[Hi|Hi]); pose proof (get_lt _ _ _ Hi) as Hl; cbn in Hl;
    do 16 (destruct i as [|i]; [injection Hi as <-; reflexivity|]); lia. }
  intros Ha Hb Hc Hd. unfold unhex4. change (if within 48 57 a then _ else _) with (h a). change (if within 48 57 b then _ else _) with (h b).
  change (if within 48 57 c then _ else _) with (h c). change (if within 48 57 d then _ else _) with (h d).
  rewrite (H _ _ Ha), (H _ _ Hb), (H _ _ Hc), (H _ _ Hd). f_equal. lia.
Qed.
Lemma u_rune_scalar r s : scalar r → u_rune r s = (r, s).
Proof.
  unfold scalar, u_rune. intros H. destruct (Z.leb_spec 55296 r), (Z.leb_spec r 57343); cbn [andb]; try done. lia.
Qed.
Definition push (t : string) (o : option (string * string)) : option (string * string) :=
  match o with Some (u, rest) => Some (t +:+ u, rest) | None => None end.
Lemma unquote_char r sp f x : spelled r sp → unquote_fuel (S f) (sp +:+ x) = push (utf8 r) (unquote_fuel f x).
Proof.
  intros H. destruct H as [r Hr H32 H34 H92|r c Hin|r h Hh Hr|r h1 h2 hi lo Hh1 Hh2 Hhi Hlo ->].
  - destruct (decode_utf8 r x Hr) as (c&s&E&D). rewrite E. cbn [unquote_fuel].
    assert (Hz : zcode c = r ∨ 128 ≤ zcode c).
    { assert (decode_rune c s = (r, x)) as D' by done. unfold decode_rune in D'. destruct (Z.ltb_spec (zcode c) 128); [injection D'; auto|auto]. }
    pose proof Hr as Hr'. unfold scalar in Hr'.
    assert (128 ≤ zcode c ∨ zcode c = r) as Hz' by tauto. clear Hz.
    destruct (Z.eqb_spec (zcode c) 34); [lia|]. destruct (Z.eqb_spec (zcode c) 92); [lia|]. destruct (Z.ltb_spec (zcode c) 32); [lia|].
    rewrite D, enc_rune_utf8. done.
  - rewrite sapp_assoc. rewrite !elem_of_cons, elem_of_nil in Hin.
    repeat destruct Hin as [E|Hin]; try (injection E as -> ->; reflexivity). done.
  - destruct Hh as (a&b&c&d&x1&y&z&t&->&Ha&Hb&Hc&Hd&->). rewrite !sapp_assoc.
    change (bs +:+ "u" +:+ String a (String b (String c (String d ""))) +:+ x)
      with (String (zchar 92) (String "u" (String a (String b (String c (String d x)))))).
    cbn [unquote_fuel]. change (zcode (zchar 92)) with 92. change (zcode "u") with 117. cbn [Z.eqb Pos.eqb orb].
    rewrite (unhex4_ok _ _ _ _ _ _ _ _ Ha Hb Hc Hd), u_rune_scalar, enc_rune_utf8 by done. done.
  - destruct Hh1 as (a&b&c&d&x1&y&z&t&->&Ha&Hb&Hc&Hd&E1). destruct Hh2 as (a'&b'&c'&d'&x1'&y'&z'&t'&->&Ha'&Hb'&Hc'&Hd'&E2). rewrite !sapp_assoc.
    change (bs +:+ "u" +:+ String a (String b (String c (String d ""))) +:+ bs +:+ "u" +:+ String a' (String b' (String c' (String d' ""))) +:+ x)
      with (String (zchar 92) (String "u" (String a (String b (String c (String d (String (zchar 92) (String "u" (String a' (String b' (String c' (String d' x)))))))))))).
    cbn [unquote_fuel]. change (zcode (zchar 92)) with 92. change (zcode "u") with 117. cbn [Z.eqb Pos.eqb orb].
    rewrite (unhex4_ok _ _ _ _ _ _ _ _ Ha Hb Hc Hd), <-E1. unfold u_rune.
    rewrite (unhex4_ok _ _ _ _ _ _ _ _ Ha' Hb' Hc' Hd'), <-E2.
    change (Ascii.eqb (zchar 92) backslash && Ascii.eqb "u" "u") with true. cbv beta iota.
    destruct (Z.leb_spec 55296 hi), (Z.leb_spec hi 57343), (Z.ltb_spec hi 56320), (Z.leb_spec 56320 lo), (Z.leb_spec lo 57343); try lia.
    cbn [andb]. rewrite enc_rune_utf8. unfold push. replace ((hi - 55296) * 1024 + (lo - 56320) + 65536) with (65536 + (hi - 55296) * 1024 + (lo - 56320)) by lia. done.
Qed.
Lemma utf8_cons r : ∃ c s, utf8 r = String c s.
Proof. unfold utf8. repeat case_decide; eauto. Qed.
Lemma spelled_pos r sp : spelled r sp → (0 < String.length sp)%nat.
Proof.
  intros H. destruct H; [destruct (utf8_cons r) as (c&s&->); cbn; lia|..]; rewrite slen_app; cbn; lia.
Qed.
Lemma unquote_ok l : Forall (λ rs : Z * string, spelled rs.1 rs.2) l → ∀ f rest,
  (String.length (str_concat (map snd l)) < f)%nat →
  unquote_fuel f (str_concat (map snd l) +:+ dq +:+ rest) = Some (str_concat (map (λ rs, utf8 rs.1) l), rest).
Proof.
  induction 1 as [|[r sp] l Hr Hl IH]; intros f rest Hf.
  - cbn in Hf. destruct f as [|f]; [lia|]. reflexivity.
  - cbn [map str_concat fst snd] in *. rewrite slen_app in Hf. pose proof (spelled_pos _ _ Hr) as Hp. cbn [snd] in Hp.
    destruct f as [|f]; [lia|]. rewrite sapp_assoc, (unquote_char r) by done. rewrite IH by lia. done.
Qed.
Lemma unquote_text k t rest : string_text k t → ∃ t', t = dq +:+ t' ∧ unquote (t' +:+ rest) = Some (k, rest).
Proof.
  intros (l&Hl&->&->). eexists. split; [done|]. unfold unquote. rewrite sapp_assoc. apply unquote_ok; [done|].
  rewrite !slen_app. cbn. lia.
Qed.

(** ** values *)
Scheme value_text_ind' := Minimality for value_text Sort Prop
  with elements_text_ind' := Minimality for elements_text Sort Prop
  with members_text_ind' := Minimality for members_text Sort Prop.
Combined Scheme text_ind from value_text_ind', elements_text_ind', members_text_ind'.

Lemma string_text_head k t : string_text k t → ∃ t', t = String (zchar 34) t'.
Proof. intros (l&_&_&->). by eexists. Qed.
(** the first character of a value is neither blank nor a closing bracket *)
Lemma value_head v t : value_text v t → ∃ c t', t = String c t' ∧ is_space c = false ∧ Ascii.eqb c "]" = false ∧ Ascii.eqb c "}" = false.
Proof.
  intros H. destruct H; try (by eexists _, _).
  - destruct (number_text_head lit) as (c&t&->&[Hc| ->]); [done|..]; eexists _, _; (split; [done|]); [|done].
    split; [|split]; [destruct (is_space c) eqn:E; [|done]; apply is_space_spec in E; rewrite !elem_of_cons, elem_of_nil in E; by repeat destruct E as [->|E]|..];
      match goal with |- Ascii.eqb c ?x = false => destruct (Ascii.eqb_spec c x) as [->|]; done end.
  - destruct (string_text_head s t) as (t'&->); [done|]. by eexists _, _.
Qed.
Lemma elements_head l t : elements_text l t → ∃ c t', skip t = String c t' ∧ Ascii.eqb c "]" = false.
Proof.
  intros H. destruct H as [v t w1 w2 H1 Hv H2|v t w1 w2 l u H1 Hv H2 Hl];
    (rewrite skip_blank by done; destruct (value_head _ _ Hv) as (c&t'&->&Hs&Hc&_); rewrite sapp_cons, skip_stop by done; eauto).
Qed.
Lemma members_head l t : members_text l t → ∃ c t', skip t = String c t' ∧ Ascii.eqb c "}" = false.
Proof.
  intros H. destruct H as [k kt v t w1 w2 w3 w4 H1 Hk|k kt v t w1 w2 w3 w4 l u H1 Hk];
    (rewrite skip_blank by done; destruct (string_text_head _ _ Hk) as (t'&->); rewrite sapp_cons, skip_stop by done; eauto).
Qed.
Lemma skip_app t x c t' : skip t = String c t' → skip (t +:+ x) = String c (t' +:+ x).
Proof.
  induction t as [|d t IH]; [done|]. rewrite sapp_cons. cbn [skip]. destruct (is_space d); [auto|]. intros E. injection E as -> ->. done.
Qed.
Lemma skip_idem t : skip (skip t) = skip t.
Proof. induction t as [|d t IH]; [done|]. cbn [skip]. destruct (is_space d) eqn:E; [done|]. cbn [skip]. by rewrite E. Qed.
Lemma p_value_skip f s : p_value f (skip s) = p_value f s.
Proof. destruct f; [done|]. cbn [p_value]. by rewrite skip_idem. Qed.
Lemma p_elements_skip f s : p_elements f (skip s) = p_elements f s.
Proof. destruct f; [done|]. cbn [p_elements]. by rewrite p_value_skip. Qed.
Lemma p_members_skip f s : p_members f (skip s) = p_members f s.
Proof. destruct f; [done|]. cbn [p_members]. by rewrite skip_idem. Qed.
Lemma stops_blank w c s : blank w → is_space c = false ∧ numchar c = false → stops (w +:+ String c s).
Proof.
  intros Hw [Hs Hc]. destruct w as [|d w]; [done|]. rewrite sapp_cons. cbn. inversion Hw as [|? ? Hd _]; subst.
  rewrite !elem_of_cons, elem_of_nil in Hd. by repeat destruct Hd as [->|Hd].
Qed.
Lemma after_number c t rest : is_digit c = true ∨ c = "-"%char → ∀ d p, is_digit d = false ∧ d ≠ "-"%char →
  after (String d p) (String c t +:+ rest) = None.
Proof.
  intros Hc d p [Hd1 Hd2]. rewrite sapp_cons. cbn [after]. destruct (Ascii.eqb_spec d c) as [->|]; [|done].
  destruct Hc as [Hc|Hc]; [congruence|done].
Qed.

Lemma p_complete :
  (∀ v t, value_text v t → ∀ f rest, (String.length t ≤ f)%nat → stops rest → p_value f (t +:+ rest) = Some (v, rest)) ∧
  (∀ l t, elements_text l t → ∀ f rest, (String.length t < f)%nat → p_elements f (t +:+ String "]" rest) = Some (l, rest)) ∧
  (∀ l t, members_text l t → ∀ f rest, (String.length t < f)%nat → p_members f (t +:+ String "}" rest) = Some (l, rest)).
Proof.
  apply text_ind.
  - intros [|f] rest Hf _; [cbn in Hf; lia|]. reflexivity.
  - intros [|f] rest Hf _; [cbn in Hf; lia|]. reflexivity.
  - intros [|f] rest Hf _; [cbn in Hf; lia|]. reflexivity.
  - intros lit Hl f rest Hf Hr. pose proof (number_ok _ _ Hl Hr) as Hn.
    destruct (value_head _ _ (Vt_num _ Hl)) as (c'&t''&Elit&Hsp&_).
    destruct (number_text_head _ Hl) as (c&t&Elit'&Hc). rewrite Elit in Elit'. injection Elit' as -> ->.
    rewrite Elit in Hf, Hn |- *. destruct f as [|f]; [cbn in Hf; lia|]. cbn [p_value].
    rewrite sapp_cons in Hn |- *. rewrite skip_stop by done. cbv beta iota.
    assert (Hne : ∀ d, is_digit d = false ∧ d ≠ "-"%char → Ascii.eqb c d = false).
    { intros d [Hd1 Hd2]. destruct (Ascii.eqb_spec c d) as [->|]; [|done]. destruct Hc; congruence. }
    rewrite (Hne "{"%char), (Hne "["%char), (Hne dquote) by done. rewrite <-sapp_cons.
    rewrite !(after_number c t rest Hc) by done. rewrite sapp_cons, Hn. done.
  - intros s t Ht f rest Hf _. destruct (unquote_text _ _ rest Ht) as (t'&->&Hu). rewrite slen_app in Hf. destruct f as [|f]; [cbn in Hf; lia|].
    change (dq +:+ t') with (String (zchar 34) t'). rewrite sapp_cons. cbn [p_value]. rewrite skip_stop by done. cbv beta iota.
    change (Ascii.eqb (zchar 34) "{") with false. change (Ascii.eqb (zchar 34) "[") with false. change (Ascii.eqb (zchar 34) dquote) with true.
    cbv beta iota. rewrite Hu. done.
  - intros w Hw f rest Hf _. destruct f as [|f]; [rewrite slen_app in Hf; cbn in Hf; lia|]. rewrite !sapp_assoc, !sapp_one. cbn [p_value]. rewrite skip_stop by done.
    cbv beta iota. change (Ascii.eqb "[" "{") with false. change (Ascii.eqb "[" "[") with true. cbv beta iota. rewrite skip_blank, skip_stop by done. done.
  - intros l t Ht IH f rest Hf _. destruct f as [|f]; [rewrite slen_app in Hf; cbn in Hf; lia|]. rewrite !sapp_assoc, !sapp_one. cbn [p_value]. rewrite skip_stop by done.
    cbv beta iota. change (Ascii.eqb "[" "{") with false. change (Ascii.eqb "[" "[") with true. cbv beta iota.
    destruct (elements_head _ _ Ht) as (c&t'&E&Hc). pose proof (skip_app _ (String "]" rest) _ _ E) as E'. rewrite E'. rewrite Hc, <-E', p_elements_skip.
    rewrite IH; [done|]. rewrite !slen_app in Hf. cbn in Hf. lia.
  - intros w Hw f rest Hf _. destruct f as [|f]; [rewrite slen_app in Hf; cbn in Hf; lia|]. rewrite !sapp_assoc, !sapp_one. cbn [p_value]. rewrite skip_stop by done.
    cbv beta iota. change (Ascii.eqb "{" "{") with true. cbv beta iota. rewrite skip_blank, skip_stop by done. done.
  - intros l t Ht IH f rest Hf _. destruct f as [|f]; [rewrite slen_app in Hf; cbn in Hf; lia|]. rewrite !sapp_assoc, !sapp_one. cbn [p_value]. rewrite skip_stop by done.
    cbv beta iota. change (Ascii.eqb "{" "{") with true. cbv beta iota.
    destruct (members_head _ _ Ht) as (c&t'&E&Hc). pose proof (skip_app _ (String "}" rest) _ _ E) as E'. rewrite E'. rewrite Hc, <-E', p_members_skip.
    rewrite IH; [done|]. rewrite !slen_app in Hf. cbn in Hf. lia.
  - intros v t w1 w2 H1 Ht IH H2 f rest Hf. rewrite !slen_app in Hf. destruct f as [|f]; [lia|]. rewrite !sapp_assoc. cbn [p_elements].
    rewrite <-p_value_skip, skip_blank, p_value_skip by done. rewrite IH; [|lia|by apply stops_blank]. rewrite skip_blank, skip_stop by done. done.
  - intros v t w1 w2 l u H1 Ht IH H2 Hl IHl f rest Hf. rewrite !slen_app in Hf. cbn [String.length] in Hf. destruct f as [|f]; [lia|]. rewrite !sapp_assoc, sapp_one. cbn [p_elements].
    rewrite <-p_value_skip, skip_blank, p_value_skip by done. rewrite IH; [|lia|by apply stops_blank]. rewrite skip_blank, skip_stop by done.
    change (Ascii.eqb "," "]") with false. change (Ascii.eqb "," ",") with true. cbv beta iota. rewrite IHl by lia. done.
  - intros k kt v t w1 w2 w3 w4 H1 Hk H2 H3 Ht IH H4 f rest Hf. rewrite !slen_app in Hf. cbn [String.length] in Hf. destruct f as [|f]; [lia|].
    rewrite !sapp_assoc, !sapp_one. cbn [p_members]. rewrite skip_blank by done.
    destruct (unquote_text _ _ (w2 +:+ String ":" (w3 +:+ t +:+ w4 +:+ String "}" rest)) Hk) as (kt'&->&Hu).
    rewrite !sapp_assoc. change (dq +:+ kt' +:+ ?x) with (String (zchar 34) (kt' +:+ x)).
    rewrite skip_stop by done. change (Ascii.eqb (zchar 34) dquote) with true. cbv beta iota. rewrite Hu.
    rewrite skip_blank, skip_stop by done. change (Ascii.eqb ":" ":") with true. cbv beta iota.
    rewrite <-p_value_skip, skip_blank, p_value_skip by done. rewrite IH; [|lia|by apply stops_blank]. rewrite skip_blank, skip_stop by done. done.
  - intros k kt v t w1 w2 w3 w4 l u H1 Hk H2 H3 Ht IH H4 Hl IHl f rest Hf. rewrite !slen_app in Hf. cbn [String.length] in Hf. destruct f as [|f]; [lia|].
    rewrite !sapp_assoc, !sapp_one. cbn [p_members]. rewrite skip_blank by done.
    destruct (unquote_text _ _ (w2 +:+ String ":" (w3 +:+ t +:+ w4 +:+ String "," (u +:+ String "}" rest))) Hk) as (kt'&->&Hu).
    rewrite !sapp_assoc. change (dq +:+ kt' +:+ ?x) with (String (zchar 34) (kt' +:+ x)).
    rewrite skip_stop by done. change (Ascii.eqb (zchar 34) dquote) with true. cbv beta iota. rewrite Hu.
    rewrite skip_blank, skip_stop by done. change (Ascii.eqb ":" ":") with true. cbv beta iota.
    rewrite <-p_value_skip, skip_blank, p_value_skip by done. rewrite IH; [|lia|by apply stops_blank]. rewrite skip_blank, skip_stop by done.
    change (Ascii.eqb "," "}") with false. change (Ascii.eqb "," ",") with true. cbv beta iota. rewrite IHl by lia. done.
Qed.

(** the parser accepts every JSON text, with its value *)
Lemma parse_complete v t : json_text v t → parse_json t = Some v.
Proof.
  intros (w1&w2&t'&->&H1&H2&Hv). unfold parse_json.
  set (n := S (S (String.length (w1 +:+ t' +:+ w2)))).
  rewrite <-(p_value_skip n), skip_blank, p_value_skip by done. rewrite (proj1 p_complete v t' Hv).
  - rewrite <-(sapp_nil_r w2), skip_blank by done. done.
  - unfold n. rewrite !slen_app. lia.
  - destruct w2 as [|d w]; [done|]. cbn. inversion H2 as [|? ? Hd _]; subst.
    rewrite !elem_of_cons, elem_of_nil in Hd. by repeat destruct Hd as [->|Hd].
Qed.
Lemma json_text_unique v1 v2 t : json_text v1 t → json_text v2 t → v1 = v2.
Proof. intros H1 H2. apply parse_complete in H1, H2. congruence. Qed.
