(** * Proofs about times as JSON text *)
From Verif Require Import SWire MNum PUtf8 PWriter PJson PJson2 PNum.

(** ** the calendar *)
Lemma month_day_ok ls : ∀ m0 doy m d, 0 ≤ doy < foldr Z.add 0 ls → month_day m0 ls doy = (m, d) →
  ∃ k, (k < length ls)%nat ∧ m = m0 + Z.of_nat k ∧ foldr Z.add 0 (take k ls) + (d - 1) = doy ∧ 1 ≤ d ≤ nth k ls 0.
Proof.
  induction ls as [|n ls IH]; intros m0 doy m d Hd H; cbn in Hd; [lia|]. cbn [month_day] in H. destruct (Z.ltb_spec doy n).
  - injection H as <- <-. exists 0%nat. cbn. lia.
  - apply IH in H as (k&Hk&->&Hs&Hb); [|lia]. exists (S k). cbn [length take foldr nth]. lia.
Qed.
Lemma month_sum lp : foldr Z.add 0 (month_lengths lp) = if lp then 366 else 365.
Proof. by destruct lp. Qed.
Lemma civil_ok day y m d : civil day = (y, m, d) →
  days_of y m d = day ∧ 1 ≤ m ≤ 12 ∧ 1 ≤ d ≤ nth (Z.to_nat (m - 1)) (month_lengths (leap y)) 0.
Proof.
  unfold civil. set (a := day / 146097). set (r0 := day `mod` 146097). set (b := Z.min (r0 / 36524) 3).
  set (r1 := r0 - 36524 * b). set (c := r1 / 1461). set (r2 := r1 - 1461 * c). set (dd := Z.min (r2 / 365) 3).
  set (yy := 400 * a + 100 * b + 4 * c + dd + 1). intros H.
  assert (H0 : day = 146097 * a + r0 ∧ 0 ≤ r0 < 146097).
  { split; [apply Z.div_mod; lia|apply Z.mod_pos_bound; lia]. }
  assert (H1 : 0 ≤ b ≤ 3 ∧ 0 ≤ r1 ∧ (b < 3 → r1 < 36524) ∧ r1 < 36525).
  { pose proof (Z.div_mod r0 36524 ltac:(lia)). pose proof (Z.mod_pos_bound r0 36524 ltac:(lia)). unfold r1, b. lia. }
  assert (H2 : 0 ≤ c ≤ 24 ∧ 0 ≤ r2 < 1461 ∧ (b < 3 → c = 24 → r2 < 1460)).
  { pose proof (Z.div_mod r1 1461 ltac:(lia)). pose proof (Z.mod_pos_bound r1 1461 ltac:(lia)). unfold r2, c. lia. }
  assert (H3 : 0 ≤ dd ≤ 3 ∧ 0 ≤ r2 - 365 * dd ∧ (r2 - 365 * dd < 365 ∨ (dd = 3 ∧ r2 = 1460))).
  { pose proof (Z.div_mod r2 365 ltac:(lia)). pose proof (Z.mod_pos_bound r2 365 ltac:(lia)). unfold dd. lia. }
  assert (Hleap : dd = 3 → r2 = 1460 → leap yy = true).
  { intros Ed Er. unfold leap. assert (E4 : yy = (100 * a + 25 * b + c + 1) * 4) by (unfold yy; lia). rewrite E4, Z.mod_mul, <-E4 by lia.
    change (0 =? 0) with true. cbn [andb].
    destruct (decide (c = 24)) as [Ec|Ec].
    - assert (b = 3) as Eb by lia. assert (E400 : yy = (a + 1) * 400) by (unfold yy; lia). rewrite E400, Z.mod_mul by lia. by rewrite orb_true_r.
    - assert (E100 : yy `mod` 100 = 4 * (c + 1)).
      { symmetry. apply Z.mod_unique with (4 * a + b); [lia|unfold yy; lia]. }
      rewrite E100. destruct (Z.eqb_spec (4 * (c + 1)) 0); [lia|]. done. }
  destruct (month_day 1 (month_lengths (leap yy)) (r2 - 365 * dd)) as [m' d'] eqn:Em. injection H as <- -> ->.
  assert (Hdoy : 0 ≤ r2 - 365 * dd < foldr Z.add 0 (month_lengths (leap yy))).
  { rewrite month_sum. destruct H3 as (?&?&[?|[Ed Er]]); [destruct (leap yy); lia|]. rewrite Hleap by done. lia. }
  apply month_day_ok in Em as (k&Hk&->&Hs&Hb); [|done]. change (length (month_lengths (leap yy))) with 12%nat in Hk.
  replace (Z.to_nat (1 + Z.of_nat k - 1)) with k by lia. split; [|split; [lia|done]].
  unfold days_of. replace (Z.to_nat (1 + Z.of_nat k - 1)) with k by lia.
  assert (Q4 : (yy - 1) / 4 = 100 * a + 25 * b + c). { symmetry. apply Z.div_unique with dd; unfold yy; lia. }
  assert (Q100 : (yy - 1) / 100 = 4 * a + b). { symmetry. apply Z.div_unique with (4 * c + dd); unfold yy; lia. }
  assert (Q400 : (yy - 1) / 400 = a). { symmetry. apply Z.div_unique with (100 * b + 4 * c + dd); unfold yy; lia. }
  rewrite Q4, Q100, Q400. set (sm := foldr Z.add 0 (take k (month_lengths (leap yy)))) in *.
  assert (yy = 400 * a + 100 * b + 4 * c + dd + 1) by done. assert (r1 = r0 - 36524 * b) by done. assert (r2 = r1 - 1461 * c) by done. lia.
Qed.

(** ** fields of fixed width *)
Lemma dec_fixed_ok k : ∀ n, 0 ≤ n < 10 ^ Z.of_nat k → dstr (dec_fixed k n) ∧ String.length (dec_fixed k n) = k ∧ nat_value 0 (dec_fixed k n) = n.
Proof.
  induction k as [|k IH]; intros n Hn; [cbn in Hn |- *; split; [apply dstr_nil|]; split; [done|lia]|].
  rewrite Nat2Z.inj_succ, Z.pow_succ_r in Hn by lia. cbn [dec_fixed]. pose proof (Z.div_mod n 10 ltac:(lia)). pose proof (Z.mod_pos_bound n 10 ltac:(lia)).
  destruct (IH (n / 10)) as (H1&H2&H3). { split; [apply Z.div_pos; lia|apply Z.div_lt_upper_bound; lia]. }
  split; [apply dstr_app; split; [done|by apply dstr_digit]|]. split.
  - rewrite slen_app, H2. cbn. lia.
  - rewrite nat_value_app, H3, nat_value_digit by done. lia.
Qed.
Lemma split_at_app a : ∀ b, split_at (String.length a) (a +:+ b) = (a, b).
Proof. induction a as [|c a IH]; intros b; [by destruct b|]. rewrite sapp_cons. cbn [String.length split_at]. by rewrite IH. Qed.
Lemma fixed_ok k n rest : (0 < k)%nat → 0 ≤ n < 10 ^ Z.of_nat k → fixed k (dec_fixed k n +:+ rest) = Some (n, rest).
Proof.
  intros Hk Hn. destruct (dec_fixed_ok k n Hn) as (H1&H2&H3). unfold fixed. rewrite <-H2 at 1. rewrite split_at_app, H2, Nat.eqb_refl, H3.
  rewrite all_digits_ok; [done|]. split; [|done]. intros E. rewrite E in H2. cbn in H2. lia.
Qed.
Lemma trim0_zeros s : ∃ n, (String.length (trim0 s) + n = String.length s)%nat ∧ trim0 s +:+ zeros n = s.
Proof.
  induction s as [|c s (n&Hn&E)]; [by exists 0%nat|]. cbn [trim0]. destruct (trim0 s) as [|c' t] eqn:T.
  - change ("" +:+ zeros n) with (zeros n) in E. destruct (Ascii.eqb_spec c "0") as [->|].
    + exists (S n). cbn in Hn |- *. rewrite E. split; [lia|done].
    + exists n. cbn in Hn |- *. rewrite sapp_one, E. split; [lia|done].
  - exists n. cbn [String.length] in Hn |- *. rewrite sapp_cons, E. split; [lia|done].
Qed.
Lemma zeros_app a b : zeros a +:+ zeros b = zeros (a + b).
Proof. induction a as [|a IH]; [done|]. cbn [zeros Nat.add]. by rewrite sapp_cons, IH. Qed.
Lemma trim0_read s : fst (split_at (String.length s) (trim0 s +:+ zeros (String.length s))) = s.
Proof.
  destruct (trim0_zeros s) as (n&Hn&E). replace (zeros (String.length s)) with (zeros n +:+ zeros (String.length (trim0 s))).
  2:{ rewrite zeros_app. f_equal. lia. }
  rewrite <-sapp_assoc, E, split_at_app. done.
Qed.
Lemma trim0_dstr s : dstr s → dstr (trim0 s).
Proof. intros H. destruct (trim0_zeros s) as (n&_&E). rewrite <-E in H. by apply dstr_app in H as [? _]. Qed.
Lemma zeros_value n : nat_value 0 (zeros n) = 0.
Proof. induction n as [|n IH]; [done|]. cbn. done. Qed.
Lemma trim0_nonzero s : nat_value 0 s ≠ 0 → trim0 s ≠ "".
Proof. intros H E. destruct (trim0_zeros s) as (n&_&Es). rewrite E in Es. change ("" +:+ zeros n) with (zeros n) in Es. rewrite <-Es, zeros_value in H. done. Qed.
Lemma lit_ok c s : lit c (String c s) = Some s.
Proof. unfold lit. by rewrite Ascii.eqb_refl. Qed.
Lemma upto_ok lo hi n : lo ≤ n ≤ hi → upto lo hi n = Some ().
Proof. intros H. unfold upto. destruct (Z.leb_spec lo n), (Z.leb_spec n hi); try lia. done. Qed.

Lemma zone_ok_parse off : zone_ok off → parse_zone (zone_text off) = Some off.
Proof.
  unfold zone_ok. intros H. unfold zone_text. destruct (Z.eqb_spec off 0) as [->|]; [done|].
  set (h := Z.abs off / 60). set (mi := Z.abs off `mod` 60).
  pose proof (Z.div_mod (Z.abs off) 60 ltac:(lia)) as Hd. fold h mi in Hd. pose proof (Z.mod_pos_bound (Z.abs off) 60 ltac:(lia)) as Hm. fold mi in Hm.
  assert (0 ≤ h ≤ 23) as Hh by lia.
  assert (∀ c, (c = "+"%char ∨ c = "-"%char) → parse_zone (String c "" +:+ dec_fixed 2 h +:+ ":" +:+ dec_fixed 2 mi) = Some (let n := h * 60 + mi in if Ascii.eqb c "-" then - n else n)) as Hp.
  { intros c Hc. rewrite sapp_one. unfold parse_zone.
    assert (Ascii.eqb c "Z" = false) as -> by (by destruct Hc as [->|]; subst).
    assert ((Ascii.eqb c "+" || Ascii.eqb c "-") = true) as -> by (by destruct Hc as [->|]; subst).
    rewrite fixed_ok by (cbn; lia). cbn [bind fst snd]. rewrite sapp_one, lit_ok. cbn [bind]. rewrite <-(sapp_nil_r (dec_fixed 2 mi)), fixed_ok by (cbn; lia).
    cbn [bind fst snd]. rewrite !upto_ok by lia. done. }
  destruct (Z.ltb_spec off 0); rewrite Hp by tauto; cbn [Ascii.eqb Bool.eqb]; f_equal; cbn zeta; lia.
Qed.

(** what is written is read back *)
Lemma time_ok off t s : zone_ok off → time_text off t = Some s → parse_time s = Some (t, off).
Proof.
  intros Hoff. unfold time_text. set (l := t + off * 60 * second). set (ns := l `mod` second). set (sec := l / second). set (sod := sec `mod` 86400).
  destruct (civil (sec / 86400)) as [[y m] d] eqn:C. destruct (_ && _) eqn:Y; [|done]. intros E. apply (inj Some) in E. subst s.
  apply andb_true_iff in Y as [Y1 Y2]. apply Z.leb_le in Y1, Y2.
  destruct (civil_ok _ _ _ _ C) as (Hday&Hm&Hd).
  assert (Hl : l = sec * second + ns ∧ 0 ≤ ns < second).
  { split; [rewrite Z.mul_comm; by apply Z.div_mod|by apply Z.mod_pos_bound]. }
  assert (Hs : sec = (sec / 86400) * 86400 + sod ∧ 0 ≤ sod < 86400).
  { split; [rewrite Z.mul_comm; by apply Z.div_mod|by apply Z.mod_pos_bound]. }
  set (day := sec / 86400) in *.
  set (h := sod / 3600). set (mi := (sod / 60) `mod` 60). set (se := sod `mod` 60).
  assert (Hh : 0 ≤ h ≤ 23 ∧ 0 ≤ mi ≤ 59 ∧ 0 ≤ se ≤ 59 ∧ sod = h * 3600 + mi * 60 + se).
  { unfold h, mi, se. pose proof (Z.div_mod sod 60 ltac:(lia)). pose proof (Z.mod_pos_bound sod 60 ltac:(lia)).
    pose proof (Z.div_mod (sod / 60) 60 ltac:(lia)). pose proof (Z.mod_pos_bound (sod / 60) 60 ltac:(lia)).
    replace (sod / 3600) with (sod / 60 / 60) by (rewrite Z.div_div by lia; done). lia. }
  assert (Hd31 : nth (Z.to_nat (m - 1)) (month_lengths (leap y)) 0 ≤ 31).
  { clear -Hm. assert (m = 1 ∨ m = 2 ∨ m = 3 ∨ m = 4 ∨ m = 5 ∨ m = 6 ∨ m = 7 ∨ m = 8 ∨ m = 9 ∨ m = 10 ∨ m = 11 ∨ m = 12) as E by lia.
    repeat destruct E as [->|E]; try subst; destruct (leap y); vm_compute; discriminate. }
  unfold parse_time. rewrite fixed_ok by (cbn; lia). cbn [bind fst snd]. rewrite sapp_one, lit_ok. cbn [bind].
  rewrite fixed_ok by (cbn; lia). cbn [bind fst snd]. rewrite sapp_one, lit_ok. cbn [bind].
  rewrite fixed_ok by (cbn; lia). cbn [bind fst snd]. rewrite sapp_one, lit_ok. cbn [bind].
  rewrite fixed_ok by (cbn; lia). cbn [bind fst snd]. rewrite sapp_one, lit_ok. cbn [bind].
  rewrite fixed_ok by (cbn; lia). cbn [bind fst snd]. rewrite sapp_one, lit_ok. cbn [bind].
  rewrite fixed_ok by (cbn; lia). cbn [bind fst snd]. rewrite !upto_ok by lia. cbn [bind].
  assert (Hz : ∃ c z, zone_text off = String c z ∧ is_digit c = false ∧ Ascii.eqb c "." = false).
  { unfold zone_text. destruct (off =? 0); [by eexists _, _|]. destruct (off <? 0); by eexists _, _. }
  destruct Hz as (c&z&Ez&Hcd&Hcp).
  match goal with |- bind ?x _ = _ => assert (x = Some (ns, zone_text off)) as -> end.
  { destruct (Z.eqb_spec ns 0) as [E0|E0].
    - change ("" +:+ zone_text off) with (zone_text off). rewrite Ez, Hcp. by rewrite E0.
    - rewrite sapp_assoc, sapp_one. cbn [Ascii.eqb Bool.eqb]. destruct (dec_fixed_ok 9 ns) as (D1&D2&D3); [unfold second in Hl; cbn; lia|].
      rewrite digits_app; [|by apply trim0_dstr|]. 2:{ intros c' s' E. rewrite Ez in E. by injection E as <- _. }
      assert (nat_value 0 (split_at 9 (trim0 (dec_fixed 9 ns) +:+ zeros 9)).1 = ns) as Hv.
      { pose proof (trim0_read (dec_fixed 9 ns)) as Ht. rewrite D2 in Ht. by rewrite Ht. }
      rewrite Hv. pose proof (trim0_nonzero (dec_fixed 9 ns)) as Hne. rewrite D3 in Hne. specialize (Hne E0).
      by destruct (trim0 (dec_fixed 9 ns)). }
  cbn [bind fst snd]. rewrite zone_ok_parse by done. cbn [bind]. f_equal. f_equal. rewrite Hday. unfold l in Hl. unfold second in *. lia.
Qed.

(** only plain characters *)
Definition plain_ascii (s : string) : Prop := Forall (λ c, zcode c < 128 ∧ c ≠ "%"%char) (list_ascii_of_string s).
Lemma plain_app a b : plain_ascii (a +:+ b) ↔ plain_ascii a ∧ plain_ascii b.
Proof.
  unfold plain_ascii. induction a as [|c a IH].
  - change ("" +:+ b) with b. split; [intros ?; split; [constructor|done]|tauto].
  - rewrite sapp_cons. cbn [list_ascii_of_string]. rewrite !Forall_cons, IH. tauto.
Qed.
Lemma plain_dstr s : dstr s → plain_ascii s.
Proof.
  intros H. eapply Forall_impl; [exact H|]. intros c Hc. apply is_digit_spec in Hc. split.
  - unfold is_digit in Hc. apply within_spec in Hc. lia.
  - intros ->. done.
Qed.
Lemma plain_valid s : plain_ascii s → valid_utf8 s.
Proof.
  intros H. exists (map zcode (list_ascii_of_string s)). induction s as [|c s IH]; [split; [constructor|done]|]. inversion H as [|? ? [Hc _] Hs]; subst.
  destruct (IH Hs) as [I1 I2]. cbn [list_ascii_of_string map str_concat]. pose proof (zcode_bound c). split.
  - constructor; [unfold scalar; lia|done].
  - rewrite <-I2. unfold utf8. rewrite decide_True by done. by rewrite zchar_zcode.
Qed.
Lemma plain_no_percent s : plain_ascii s → no_percent s.
Proof. intros H. eapply Forall_impl; [exact H|]. by intros c [_ ?]. Qed.
Lemma plain_fixed k n : 0 ≤ n < 10 ^ Z.of_nat k → plain_ascii (dec_fixed k n).
Proof. intros H. apply plain_dstr, dec_fixed_ok, H. Qed.
Lemma dec_fixed_dstr k : ∀ n, dstr (dec_fixed k n).
Proof.
  induction k as [|k IH]; intros n; [apply dstr_nil|]. cbn [dec_fixed]. apply dstr_app. split; [apply IH|]. apply dstr_digit. apply Z.mod_pos_bound. lia.
Qed.
Lemma time_plain off t s : time_text off t = Some s → plain_ascii s.
Proof.
  unfold time_text. destruct (civil _) as [[y m] d]. destruct (_ && _); [|done]. intros E. apply (inj Some) in E. subst s.
  assert (P : ∀ c, zcode c < 128 ∧ c ≠ "%"%char → plain_ascii (String c "")) by (intros c Hc; constructor; [done|constructor]).
  rewrite !plain_app. repeat match goal with |- _ ∧ _ => split end; try (by apply plain_dstr, dec_fixed_dstr); try (by apply P).
  - destruct (_ =? 0); [constructor|]. apply plain_app. split; [by apply P|]. apply plain_dstr, trim0_dstr, dec_fixed_dstr.
  - unfold zone_text. destruct (_ =? 0); [by apply P|]. rewrite !plain_app. destruct (_ <? 0); repeat split; try (by apply plain_dstr, dec_fixed_dstr); by apply P.
Qed.
