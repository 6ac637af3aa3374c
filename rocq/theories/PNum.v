(** * Proofs about numbers and times as JSON text *)
From Verif Require Import SJson MNum PUtf8 PWriter PJson PJson2.

(** ** decimal digits *)
Definition dstr (s : string) : Prop := Forall (λ c, c ∈ list_ascii_of_string "0123456789") (list_ascii_of_string s).
Lemma dstr_app a b : dstr (a +:+ b) ↔ dstr a ∧ dstr b.
Proof.
  unfold dstr. induction a as [|c a IH].
  - change ("" +:+ b) with b. split; [intros ?; split; [constructor|done]|tauto].
  - rewrite sapp_cons. cbn [list_ascii_of_string]. rewrite !Forall_cons, IH. tauto.
Qed.
Lemma dstr_cons c s : dstr (String c s) ↔ is_digit c = true ∧ dstr s.
Proof. unfold dstr. cbn [list_ascii_of_string]. rewrite Forall_cons, is_digit_spec. done. Qed.
Lemma dstr_nil : dstr "".
Proof. constructor. Qed.
Lemma digit_char_code d : 0 ≤ d < 10 → zcode (digit_char d) = 48 + d.
Proof. intros H. change (digit_char d) with (zchar (48 + d)). apply zcode_zchar. lia. Qed.
Lemma digit_char_digit d : 0 ≤ d < 10 → is_digit (digit_char d) = true.
Proof. intros H. unfold is_digit. apply within_spec. rewrite digit_char_code by done. lia. Qed.
Lemma dstr_digit d : 0 ≤ d < 10 → dstr (digit d).
Proof. intros H. apply dstr_cons. split; [by apply digit_char_digit|apply dstr_nil]. Qed.
Lemma nat_value_app a b : ∀ acc, nat_value acc (a +:+ b) = nat_value (nat_value acc a) b.
Proof. induction a as [|c a IH]; intros acc; [done|]. rewrite sapp_cons. cbn. apply IH. Qed.
Lemma nat_value_digit acc d : 0 ≤ d < 10 → nat_value acc (digit d) = acc * 10 + d.
Proof. intros H. cbn. rewrite digit_char_code by done. lia. Qed.

Lemma dec_fuel_ok f : ∀ n, 0 ≤ n < 2 ^ Z.of_nat f → (0 < f)%nat →
  dstr (dec_fuel f n) ∧ nat_value 0 (dec_fuel f n) = n ∧
  ∃ c t, dec_fuel f n = String c t ∧ (c = "0"%char → n = 0 ∧ t = "").
Proof.
  induction f as [|f IH]; intros n Hn Hf; [lia|]. cbn [dec_fuel].
  destruct (Z.ltb_spec n 10).
  - rewrite Z.mod_small by lia. change ("" +:+ digit n) with (digit n). split; [by apply dstr_digit; lia|]. split.
    + rewrite nat_value_digit by lia. lia.
    + eexists _, _. split; [done|]. intros E. apply (f_equal zcode) in E. rewrite digit_char_code in E by lia. change (zcode "0") with 48 in E. split; [lia|done].
  - assert (Hp : 2 ^ Z.of_nat (S f) = 2 * 2 ^ Z.of_nat f) by (rewrite Nat2Z.inj_succ, Z.pow_succ_r by lia; done).
    assert (Hq : 0 ≤ n / 10 < 2 ^ Z.of_nat f).
    { split; [apply Z.div_pos; lia|]. apply Z.div_lt_upper_bound; lia. }
    destruct (IH (n / 10) Hq) as (H1&H2&c&t&E&H3). { destruct f; [cbn in Hp; lia|lia]. }
    pose proof (Z.mod_pos_bound n 10). pose proof (Z.div_mod n 10). split; [|split].
    + apply dstr_app. split; [done|]. apply dstr_digit. lia.
    + rewrite nat_value_app, H2, nat_value_digit by lia. lia.
    + rewrite E. eexists _, _. rewrite sapp_cons. split; [done|]. intros ->. destruct (H3 eq_refl) as [H5 _]. lia.
Qed.
Lemma dec_nat_ok n : 0 ≤ n → dstr (dec_nat n) ∧ nat_value 0 (dec_nat n) = n ∧
  ∃ c t, dec_nat n = String c t ∧ (c = "0"%char → n = 0 ∧ t = "").
Proof.
  intros Hn. apply dec_fuel_ok; [|lia]. rewrite Nat2Z.inj_succ, Z2Nat.id by apply Z.log2_nonneg.
  split; [done|]. destruct (decide (n = 0)) as [->|]; [done|]. apply Z.log2_spec. lia.
Qed.
Lemma dec_nat_digits n : 0 ≤ n → digits_only (dec_nat n).
Proof. intros Hn. destruct (dec_nat_ok n Hn) as (H1&_&c&t&E&_). split; [by rewrite E|done]. Qed.
Lemma dec_nat_int_part n : 0 ≤ n → int_part (dec_nat n).
Proof.
  intros Hn. destruct (dec_nat_ok n Hn) as (H1&_&c&t&E&H0). destruct (decide (c = "0"%char)) as [->|Hc].
  - destruct (H0 eq_refl) as [_ ->]. by left.
  - right. split; [by apply dec_nat_digits|]. rewrite E. intros t' E'. by injection E'.
Qed.
Lemma dec_nat_number n : 0 ≤ n → number_text (dec_nat n).
Proof.
  intros Hn. exists "", (dec_nat n), "", "". split; [by rewrite !sapp_nil_r|]. split; [set_solver|]. split; [by apply dec_nat_int_part|]. split; by left.
Qed.
Lemma dec_int_number n : number_text (dec_int n).
Proof.
  unfold dec_int. destruct (Z.ltb_spec n 0); [|by apply dec_nat_number].
  exists "-", (dec_nat (- n)), "", "". split; [by rewrite !sapp_nil_r|]. split; [set_solver|]. split; [apply dec_nat_int_part; lia|]. split; by left.
Qed.
Lemma digits_dstr d : dstr d → digits d = (d, "").
Proof. intros H. rewrite <-(sapp_nil_r d) at 1. apply digits_app; [done|]. done. Qed.
Lemma all_digits_ok d : digits_only d → all_digits d = true.
Proof. intros [Hne Hd]. unfold all_digits. rewrite digits_dstr by done. by destruct d. Qed.
Lemma minus_digits d rest : digits_only d → minus (d +:+ rest) = (false, d +:+ rest).
Proof.
  intros [Hne Hd]. destruct d as [|c d]; [done|]. rewrite sapp_cons. unfold minus. destruct (Ascii.eqb_spec c "-") as [->|]; [|done].
  by apply dstr_cons in Hd as [? _].
Qed.
Lemma parse_int_ok n : in_int64 n → parse_int (dec_int n) = Some n.
Proof.
  intros Hn. unfold parse_int, dec_int, in_int64 in *. destruct (Z.ltb_spec n 0).
  - rewrite sapp_one. cbn [minus Ascii.eqb Bool.eqb]. rewrite all_digits_ok by (apply dec_nat_digits; lia).
    destruct (dec_nat_ok (- n)) as (_&->&_); [lia|]. destruct (Z.leb_spec (- 2 ^ 63) (- - n)), (Z.ltb_spec (- - n) (2 ^ 63)); cbn [andb]; try lia. f_equal. lia.
  - rewrite <-(sapp_nil_r (dec_nat n)), minus_digits, sapp_nil_r by (by apply dec_nat_digits). rewrite all_digits_ok by (by apply dec_nat_digits).
    destruct (dec_nat_ok n) as (_&->&_); [lia|]. destruct (Z.leb_spec (- 2 ^ 63) n), (Z.ltb_spec n (2 ^ 63)); cbn [andb]; try lia. done.
Qed.

(** ** the grammar check is sound *)
Lemma digits_sound s a b : digits s = (a, b) → s = a +:+ b ∧ dstr a.
Proof.
  revert a b. induction s as [|c s IH]; intros a b; cbn [digits].
  - intros E. injection E as <- <-. split; [done|apply dstr_nil].
  - destruct (is_digit c) eqn:Hc.
    + destruct (digits s) as [a' b'] eqn:D. intros E. injection E as <- <-. destruct (IH _ _ eq_refl) as [-> Hd]. split; [done|]. by apply dstr_cons.
    + intros E. injection E as <- <-. split; [done|apply dstr_nil].
Qed.
Lemma number_sound s l r : number s = Some (l, r) → s = l +:+ r ∧ number_text l.
Proof.
  rewrite number_eq. intros H.
  destruct (sign_of s) as [sg s0] eqn:Es.
  assert (s = sg +:+ s0 ∧ sg ∈ [""; "-"]) as [-> Hsg].
  { unfold sign_of in Es. destruct s as [|c s']; [injection Es as <- <-; split; [done|set_solver]|].
    destruct (Ascii.eqb_spec c "-") as [->|]; injection Es as <- <-; split; try done; set_solver. }
  destruct (int_of s0) as [ip s1] eqn:Ei.
  assert (s0 = ip +:+ s1 ∧ (ip = "" ∨ int_part ip)) as [-> Hip].
  { unfold int_of in Ei. destruct s0 as [|c s']; [injection Ei as <- <-; split; [done|by left]|].
    destruct (Ascii.eqb_spec c "0") as [->|Hc]; [injection Ei as <- <-; split; [done|by right; left]|].
    destruct (digits_sound _ _ _ Ei) as [E Hd]. split; [done|]. destruct ip as [|i0 ip]; [by left|]. right. right. split; [done|].
    rewrite sapp_cons in E. injection E as <- _. intros t E. by injection E. }
  destruct ip as [|i0 ip]; [done|]. destruct Hip as [|Hip]; [done|].
  destruct (frac_of s1) as [[fp s2]|] eqn:Ef; [|done].
  assert (s1 = fp +:+ s2 ∧ frac_part fp) as [-> Hfp].
  { unfold frac_of in Ef. destruct s1 as [|c s']; [injection Ef as <- <-; split; [done|by left]|].
    destruct (Ascii.eqb_spec c ".") as [->|Hc]; [|injection Ef as <- <-; split; [done|by left]].
    destruct (digits s') as [d r'] eqn:D. destruct (digits_sound _ _ _ D) as [-> Hd]. destruct d as [|d0 d]; [done|]. injection Ef as <- <-.
    split; [done|]. right. eexists. split; [done|]. split; [done|]. done. }
  destruct (exp_of s2) as [[ep r']|] eqn:Ee; [|done]. injection H as <- <-.
  assert (s2 = ep +:+ r' ∧ exp_part ep) as [-> Hep].
  { unfold exp_of in Ee. destruct s2 as [|c s']; [injection Ee as <- <-; split; [done|by left]|].
    destruct (Ascii.eqb c "e" || Ascii.eqb c "E") eqn:Hc; [|injection Ee as <- <-; split; [done|by left]].
    assert (Hce : String c "" ∈ ["e"; "E"]).
    { apply orb_true_iff in Hc as [Hc|Hc]; apply Ascii.eqb_eq in Hc as ->; set_solver. }
    destruct (match s' with String c2 s'' => _ | "" => _ end) as [sg2 s3] eqn:E2.
    assert (s' = sg2 +:+ s3 ∧ sg2 ∈ [""; "+"; "-"]) as [-> Hsg2].
    { destruct s' as [|c2 s'']; [injection E2 as <- <-; split; [done|set_solver]|].
      destruct (Ascii.eqb c2 "+" || Ascii.eqb c2 "-") eqn:Hc2; injection E2 as <- <-; [|split; [done|set_solver]]. split; [done|].
      apply orb_true_iff in Hc2 as [Hc2|Hc2]; apply Ascii.eqb_eq in Hc2 as ->; set_solver. }
    destruct (digits s3) as [d r2] eqn:D. destruct (digits_sound _ _ _ D) as [-> Hd]. destruct d as [|d0 d]; [done|]. injection Ee as <- <-.
    rewrite !sapp_assoc, sapp_one. split; [done|]. right. exists (String c ""), sg2, (String d0 d). split; [done|]. split; [done|]. split; [done|]. split; done. }
  rewrite !sapp_assoc. split; [done|]. exists sg, (String i0 ip), fp, ep. done.
Qed.

(** ** floats *)
Lemma div_half_even_exact k d : 0 < d → div_half_even (k * d) d = k.
Proof.
  intros Hd. unfold div_half_even. rewrite Z.div_mul, Z.mod_mul by lia.
  destruct (Z.ltb_spec d (2 * 0)), (Z.eqb_spec d (2 * 0)); cbn; lia.
Qed.
Lemma digits2_log2 p : Z.pos (SpecFloat.digits2_pos p) = Z.log2 (Z.pos p) + 1.
Proof.
  induction p as [p IH|p IH|]; cbn [SpecFloat.digits2_pos]; [..|done].
  - rewrite Pos2Z.inj_succ, IH, Pos2Z.inj_xI. rewrite Z.log2_succ_double by lia. lia.
  - rewrite Pos2Z.inj_succ, IH, Pos2Z.inj_xO. rewrite Z.log2_double by lia. lia.
Qed.
Lemma bounded_spec m e : SpecFloat.bounded 53 1024 m e = true → -1074 ≤ e ≤ 971 ∧ Z.log2 (Z.pos m) ≤ 52 ∧ (e = -1074 ∨ Z.log2 (Z.pos m) = 52).
Proof.
  unfold SpecFloat.bounded, SpecFloat.canonical_mantissa. rewrite andb_true_iff, Z.leb_le. intros [H1 H2]. apply Zbool.Zeq_bool_eq in H1.
  rewrite digits2_log2 in H1. unfold SpecFloat.fexp, SpecFloat.emin in H1. pose proof (Z.log2_nonneg (Z.pos m)). lia.
Qed.
(** the condition on [num] and [den] says that their quotient is [m * 2^e] *)
Lemma nearest_exact neg m e num den : SpecFloat.bounded 53 1024 m e = true → 0 < den → 0 < num →
  (if 0 <=? e then num = Z.pos m * 2 ^ e * den else num * 2 ^ (- e) = Z.pos m * den) →
  nearest neg num den = Some (S754_finite neg m e).
Proof.
  intros Hb Hden Hnum Heq. destruct (bounded_spec _ _ Hb) as (He&Hlm&Hcan). unfold nearest. destruct (Z.eqb_spec num 0); [lia|].
  set (p := Z.log2 num). set (r := Z.log2 den). set (l := p - r). set (g := Z.log2 (Z.pos m)) in *.
  assert (0 ≤ p) by apply Z.log2_nonneg. assert (0 ≤ r) by apply Z.log2_nonneg. assert (0 ≤ g) by apply Z.log2_nonneg.
  pose proof (Z.log2_spec num Hnum) as Hp. pose proof (Z.log2_spec den Hden) as Hr. pose proof (Z.log2_spec (Z.pos m) ltac:(lia)) as Hm.
  fold p in Hp. fold r in Hr. fold g in Hm. rewrite <-Z.add_1_r in Hp, Hr, Hm.
  set (K := Z.abs l + Z.abs e + 2).
  assert (HE : num * 2 ^ K = Z.pos m * 2 ^ (e + K) * den).
  { destruct (Z.leb_spec 0 e).
    - rewrite Heq, Z.pow_add_r by lia. ring.
    - replace K with (- e + (e + K)) by lia. rewrite (Z.pow_add_r 2 (- e)) by lia. rewrite Z.mul_assoc, Heq. replace (- e + (e + K)) with K by lia. ring. }
  assert (PK : 0 < 2 ^ K) by (apply Z.pow_pos_nonneg; lia). assert (PE : 0 < 2 ^ (e + K)) by (apply Z.pow_pos_nonneg; lia).
  (* 2^(g+e) <= num/den < 2^(g+e+1) *)
  assert (B1 : 2 ^ (g + e + K) * den ≤ num * 2 ^ K < 2 ^ (g + e + 1 + K) * den).
  { rewrite HE. replace (g + e + K) with (g + (e + K)) by lia. replace (g + e + 1 + K) with ((g + 1) + (e + K)) by lia.
    rewrite !(Z.pow_add_r 2 _ (e + K)) by lia. split.
    - apply Z.mul_le_mono_nonneg_r; [lia|]. apply Z.mul_le_mono_nonneg_r; lia.
    - apply Z.mul_lt_mono_pos_r; [lia|]. apply Z.mul_lt_mono_pos_r; lia. }
  (* 2^(l-1) < num/den < 2^(l+1) *)
  assert (B2 : 2 ^ (l - 1 + K) * den < num * 2 ^ K < 2 ^ (l + 1 + K) * den).
  { split.
    - apply Z.lt_le_trans with (2 ^ (l - 1 + K) * 2 ^ (r + 1)).
      + apply Z.mul_lt_mono_pos_l; [apply Z.pow_pos_nonneg; lia|lia].
      + rewrite <-Z.pow_add_r by lia. replace (l - 1 + K + (r + 1)) with (p + K) by lia. rewrite Z.pow_add_r by lia. apply Z.mul_le_mono_nonneg_r; lia.
    - apply Z.lt_le_trans with (2 ^ (l + 1 + K) * 2 ^ r).
      + rewrite <-Z.pow_add_r by lia. replace (l + 1 + K + r) with ((p + 1) + K) by lia. rewrite Z.pow_add_r by lia. apply Z.mul_lt_mono_pos_r; lia.
      + apply Z.mul_le_mono_nonneg_l; [apply Z.pow_nonneg; lia|lia]. }
  assert (L1 : l - 1 ≤ g + e).
  { destruct (Z.lt_ge_cases (g + e) (l - 1)) as [Hlt|]; [|lia]. exfalso.
    assert (2 ^ (g + e + 1 + K) ≤ 2 ^ (l - 1 + K)) by (apply Z.pow_le_mono_r; lia). nia. }
  assert (L2 : g + e ≤ l).
  { destruct (Z.lt_ge_cases l (g + e)) as [Hlt|]; [|lia]. exfalso.
    assert (2 ^ (l + 1 + K) ≤ 2 ^ (g + e + K)) by (apply Z.pow_le_mono_r; lia). nia. }
  set (above := if 0 <=? l then den * 2 ^ l <=? num else den <=? num * 2 ^ (- l)).
  assert (HA : above = true ↔ 2 ^ (l + K) * den ≤ num * 2 ^ K).
  { unfold above. destruct (Z.leb_spec 0 l).
    - rewrite Z.leb_le, Z.pow_add_r by lia. split; intros Hx.
      + replace (2 ^ l * 2 ^ K * den) with ((den * 2 ^ l) * 2 ^ K) by ring. apply Z.mul_le_mono_nonneg_r; lia.
      + replace (2 ^ l * 2 ^ K * den) with ((den * 2 ^ l) * 2 ^ K) in Hx by ring. by apply Z.mul_le_mono_pos_r in Hx.
    - rewrite Z.leb_le. replace K with ((- l) + (l + K)) at 2 by lia. rewrite (Z.pow_add_r 2 (- l)) by lia.
      assert (0 < 2 ^ (l + K)) by (apply Z.pow_pos_nonneg; lia). split; intros Hx.
      + rewrite (Z.mul_comm _ den), Z.mul_assoc. apply Z.mul_le_mono_nonneg_r; lia.
      + rewrite (Z.mul_comm _ den), Z.mul_assoc in Hx. by apply Z.mul_le_mono_pos_r in Hx. }
  assert (HL : (if above then l else l - 1) = g + e).
  { destruct above.
    - destruct (decide (l ≤ g + e)); [lia|]. exfalso. assert (g + e = l - 1) as E by lia. rewrite E in B1. replace (l - 1 + 1 + K) with (l + K) in B1 by lia.
      pose proof (proj1 HA eq_refl). lia.
    - destruct (decide (g + e ≤ l - 1)); [lia|]. exfalso. assert (g + e = l) as E by lia. rewrite E in B1. by pose proof (proj2 HA (proj1 B1)). }
  rewrite HL. replace (Z.max (-1074) (g + e - 52)) with e by lia.
  assert (Hq : (if 0 <=? e then div_half_even num (den * 2 ^ e) else div_half_even (num * 2 ^ (- e)) den) = Z.pos m).
  { destruct (Z.leb_spec 0 e).
    - rewrite Heq. replace (Z.pos m * 2 ^ e * den) with (Z.pos m * (den * 2 ^ e)) by ring. apply div_half_even_exact.
      apply Z.mul_pos_pos; [lia|]. apply Z.pow_pos_nonneg; lia.
    - rewrite Heq. by apply div_half_even_exact. }
  rewrite Hq. destruct (Z.eqb_spec (Z.pos m) (2 ^ 53)) as [E|].
  { exfalso. unfold g in Hlm. rewrite E, Z.log2_pow2 in Hlm by lia. lia. }
  destruct (Z.ltb_spec 971 e); [lia|]. done.
Qed.

(** [ff] writes every finite float64 as a JSON number that reads as the same
    float64 *)
Lemma read_back_ok f t : read_back f t = true → number_text t ∧ parse_float t = Some f.
Proof.
  unfold read_back. destruct (number t) as [[l r]|] eqn:N; [|done]. destruct r; [|done].
  destruct (parse_float t) as [[| | |s m e]|] eqn:P; try done. destruct f as [| | |s' m' e']; try done.
  rewrite !andb_true_iff, Z.eqb_eq, Pos.eqb_eq. intros [[Hs Hm] He]. apply Bool.eqb_prop in Hs. subst.
  apply number_sound in N as [E Hn]. rewrite sapp_nil_r in E. subst. done.
Qed.
Lemma first_read_back_ok f l last : number_text last ∧ parse_float last = Some f →
  number_text (first_read_back f l last) ∧ parse_float (first_read_back f l last) = Some f.
Proof. intros H. induction l as [|t l IH]; [done|]. cbn. destruct (read_back f t) eqn:E; [by apply read_back_ok|done]. Qed.
Lemma minus_sg (neg : bool) d rest : digits_only d → minus ((if neg then "-" else "") +:+ d +:+ rest) = (neg, d +:+ rest).
Proof. intros H. destruct neg; [done|]. change ("" +:+ d +:+ rest) with (d +:+ rest). by apply minus_digits. Qed.
Lemma go_float_ok f : valid_binary 53 1024 f = true → ffinite f = true → number_text (go_float f) ∧ parse_float (go_float f) = Some f.
Proof.
  intros Hv Hf. destruct f as [s| | |s m e]; try done.
  - destruct s; (split; [|done]).
    + exists "-", "0", "", "". split; [done|]. split; [set_solver|]. split; [by left|]. split; by left.
    + exists "", "0", "", "". split; [done|]. split; [set_solver|]. split; [by left|]. split; by left.
  - cbn [go_float]. apply first_read_back_ok. cbn in Hv.
    assert (0 < 5 ^ (- e) ∨ 0 ≤ e) as P5. { destruct (decide (0 ≤ e)); [by right|left]. apply Z.pow_pos_nonneg; lia. }
    assert (Hsg : (if s then "-" else "") ∈ [""; "-"]) by (destruct s; set_solver).
    destruct (Z.leb_spec 0 e) as [He|He].
    + assert (0 < 2 ^ e) by (apply Z.pow_pos_nonneg; lia). assert (0 < Z.pos m * 2 ^ e) by lia. split.
      * exists (if s then "-" else ""), (dec_nat (Z.pos m * 2 ^ e)), "", "". split; [by rewrite !sapp_nil_r|]. split; [done|].
        split; [apply dec_nat_int_part; lia|]. split; by left.
      * pose proof (dec_nat_digits (Z.pos m * 2 ^ e)) as Hd. specialize (Hd ltac:(lia)). unfold parse_float.
        rewrite <-(sapp_nil_r (dec_nat _)), minus_sg, sapp_nil_r by done. rewrite digits_dstr by apply Hd. cbn [bind].
        change (String.length "") with 0%nat. cbn [Z.of_nat Z.sub Z.add Z.opp]. change (0 <=? 0) with true. cbv iota. rewrite sapp_nil_r.
        destruct (dec_nat_ok (Z.pos m * 2 ^ e)) as (_&->&_); [lia|]. rewrite Z.pow_0_r, Z.mul_1_r. apply nearest_exact; [done|lia|lia|].
        destruct (Z.leb_spec 0 e); [lia|lia].
    + destruct P5 as [P5|?]; [|lia]. split.
      * exists (if s then "-" else ""), (dec_nat (Z.pos m * 5 ^ (- e))), "", ("e-" +:+ dec_nat (- e)). split; [done|]. split; [done|].
        split; [apply dec_nat_int_part; lia|]. split; [by left|]. right. exists "e", "-", (dec_nat (- e)). split; [done|]. split; [set_solver|]. split; [set_solver|].
        apply dec_nat_digits. lia.
      * pose proof (dec_nat_digits (Z.pos m * 5 ^ (- e))) as Hd. specialize (Hd ltac:(lia)). pose proof (dec_nat_digits (- e) ltac:(lia)) as He'. unfold parse_float.
        rewrite minus_sg by done. rewrite digits_app; [|apply Hd|]. 2:{ intros c t E. rewrite sapp_cons in E. by injection E as <- _. }
        change ("e-" +:+ dec_nat (- e)) with (String "e" (String "-" (dec_nat (- e)))). cbn [Ascii.eqb Bool.eqb orb minus bind].
        rewrite all_digits_ok by done. cbn [bind]. change (String.length "") with 0%nat. rewrite sapp_nil_r. change (Z.of_nat 0) with 0. rewrite Z.sub_0_r.
        destruct (dec_nat_ok (- e)) as (_&->&_); [lia|]. destruct (dec_nat_ok (Z.pos m * 5 ^ (- e))) as (_&->&_); [lia|].
        rewrite !Z.opp_involutive. destruct (Z.leb_spec 0 e); [lia|]. apply nearest_exact; [done|apply Z.pow_pos_nonneg; lia|lia|].
        destruct (Z.leb_spec 0 e); [lia|]. change 10 with (5 * 2). rewrite Z.pow_mul_l. ring.
Qed.
