(** * Proofs: the numbers in StatsD timing and gauge texts *)
From Coq Require Import Reals Lra.
From Flocq Require Import Core Round.
From Verif Require Import SStatsd3 PStatsd PStatsd2 PWriter SFloat PFloat PFloat2.

#[local] Arguments bpow : simpl never.

Lemma digit_of_char d : 0 ≤ d < 10 → digit_of (digit_char d) = Some d ∧ digit_char d ≠ "."%char ∧ digit_char d ≠ "-"%char.
Proof.
  intros Hd. assert (d = 0 ∨ d = 1 ∨ d = 2 ∨ d = 3 ∨ d = 4 ∨ d = 5 ∨ d = 6 ∨ d = 7 ∨ d = 8 ∨ d = 9) as H by lia.
  repeat (destruct H as [->|H] || subst d); vm_compute; repeat split; congruence.
Qed.
Lemma read_unsigned_digit a d rest : 0 ≤ d < 10 → read_unsigned a (digit d +:+ rest) = read_unsigned (10 * a + d) rest.
Proof.
  intros Hd. destruct (digit_of_char d Hd) as (H1 & H2 & H3). unfold digit. rewrite sapp_cons. cbn [read_unsigned].
  destruct (ascii_dec _ _); [done|]. rewrite H1. done.
Qed.
Lemma read_frac_digit a b d rest : 0 ≤ d < 10 → read_frac a b (digit d +:+ rest) = read_frac (10 * a + d) (10 * b) rest.
Proof.
  intros Hd. destruct (digit_of_char d Hd) as (H1 & H2 & H3). unfold digit. rewrite sapp_cons. cbn [read_frac].
  rewrite H1. done.
Qed.
Lemma read_dec_fuel f : ∀ n rest, 0 ≤ n → n < 10 ^ Z.of_nat f → read_unsigned 0 (dec_fuel f n +:+ rest) = read_unsigned n rest.
Proof.
  induction f as [|f IH]; intros n rest Hn Hf.
  - simpl in Hf. assert (n = 0) as -> by lia. done.
  - cbn [dec_fuel]. pose proof (Z.mod_pos_bound n 10 ltac:(lia)). pose proof (Z.div_mod n 10 ltac:(lia)).
    destruct (Z.ltb_spec n 10).
    + change ("" +:+ digit (n `mod` 10)) with (digit (n `mod` 10)). rewrite read_unsigned_digit by done. f_equal. rewrite Z.mod_small by lia. lia.
    + rewrite sapp_assoc, IH.
      * rewrite read_unsigned_digit by done. f_equal. lia.
      * lia.
      * apply Z.div_lt_upper_bound; [lia|]. rewrite Nat2Z.inj_succ, Z.pow_succ_r in Hf by lia. lia.
Qed.
Lemma log2_fuel n : 0 ≤ n → n < 10 ^ Z.of_nat (S (Z.to_nat (Z.log2 n))).
Proof.
  intros Hn. destruct (decide (n = 0)) as [->|]; [done|].
  pose proof (Z.log2_spec n ltac:(lia)). pose proof (Z.log2_nonneg n).
  rewrite Nat2Z.inj_succ, Z2Nat.id by lia. eapply Z.lt_le_trans; [apply H|]. apply Z.pow_le_mono_l. lia.
Qed.
Lemma read_dec_nat n rest : 0 ≤ n → read_unsigned 0 (dec_nat n +:+ rest) = read_unsigned n rest.
Proof. intros Hn. apply read_dec_fuel; [done|]. by apply log2_fuel. Qed.
Lemma dec_nat_head n : ∃ d s, 0 ≤ d < 10 ∧ dec_nat n = String (digit_char d) s.
Proof.
  unfold dec_nat. generalize (Z.to_nat (Z.log2 n)). intros f. revert n. induction f as [|f IH]; intros n.
  - cbn [dec_fuel]. exists (n `mod` 10), "". split; [apply Z.mod_pos_bound; lia|]. by destruct (n <? 10).
  - remember (S f) as f'. cbn [dec_fuel]. destruct (n <? 10).
    + exists (n `mod` 10), "". split; [apply Z.mod_pos_bound; lia|]. done.
    + subst f'. destruct (IH (n / 10)) as (d & s & Hd & Hs). exists d, (s +:+ digit (n `mod` 10)). split; [done|]. by rewrite Hs, sapp_cons.
Qed.
Lemma read_digits_nat n rest : 0 ≤ n → read_digits (dec_nat n +:+ rest) = read_unsigned n rest.
Proof.
  intros Hn. rewrite <- (read_dec_nat n rest) by done. destruct (dec_nat_head n) as (d & s & Hd & ->). rewrite sapp_cons.
  destruct (digit_of_char d Hd) as (H1 & H2 & H3). unfold read_digits. by rewrite H1.
Qed.
Lemma read_num_nat n rest : 0 ≤ n → read_num (dec_nat n +:+ rest) = read_unsigned n rest.
Proof.
  intros Hn. rewrite <- (read_digits_nat n rest) by done. destruct (dec_nat_head n) as (d & s & Hd & ->). rewrite sapp_cons.
  destruct (digit_of_char d Hd) as (H1 & H2 & H3). cbn [read_num]. by destruct (ascii_dec _ "-"%char).
Qed.
Lemma read_num_neg s : read_num ("-" +:+ s) = ('(n, d) ← read_digits s; Some (- n, d)).
Proof. done. Qed.
Lemma read_dec_fixed k : ∀ n a b rest, read_frac a b (dec_fixed k n +:+ rest) = read_frac (a * 10 ^ Z.of_nat k + n `mod` 10 ^ Z.of_nat k) (b * 10 ^ Z.of_nat k) rest.
Proof.
  induction k as [|k IH]; intros n a b rest.
  - cbn [dec_fixed]. change ("" +:+ rest) with rest. simpl (10 ^ Z.of_nat 0). rewrite Z.mod_1_r. f_equal; lia.
  - cbn [dec_fixed]. rewrite sapp_assoc, IH. pose proof (Z.mod_pos_bound n 10 ltac:(lia)). rewrite read_frac_digit by done.
    rewrite Nat2Z.inj_succ, Z.pow_succ_r by lia. f_equal; [|lia].
    rewrite (Z.rem_mul_r n 10 (10 ^ Z.of_nat k)); [lia|lia|]. apply Z.pow_pos_nonneg; lia.
Qed.
Lemma read_dec_point n : 0 ≤ n → ∀ a, read_unsigned a ("." +:+ dec_fixed 2 n) = Some (a * 100 + n `mod` 100, 100).
Proof.
  intros Hn a. change ("." +:+ dec_fixed 2 n) with (String "." (dec_fixed 2 n)). cbn [read_unsigned]. destruct (ascii_dec _ _); [|done].
  transitivity (read_frac a 1 (dec_fixed 2 n)); [done|].
  rewrite <- (sapp_nil_r (dec_fixed 2 n)), read_dec_fixed. done.
Qed.
Lemma read_point n : 0 ≤ n → read_digits (dec_point n 2) = Some (n, 100) ∧ read_num (dec_point n 2) = Some (n, 100).
Proof.
  intros Hn. unfold dec_point. change (10 ^ Z.of_nat 2) with 100. pose proof (Z.div_pos n 100 Hn ltac:(lia)).
  rewrite read_num_nat, read_digits_nat, read_dec_point by done. pose proof (Z.div_mod n 100 ltac:(lia)). split; do 2 f_equal; lia.
Qed.

(** ** rounding to hundredths *)
Lemma div_half_even_nearest n d : 0 < d → div_half_even n d = ZnearestE (IZR n / IZR d).
Proof.
  intros Hd. unfold div_half_even, Znearest. rewrite Zfloor_div by lia.
  pose proof (Z.div_mod n d ltac:(lia)) as Hdm. pose proof (Z.mod_pos_bound n d Hd) as Hm.
  set (q := n / d) in *. set (r := n `mod` d) in *.
  assert (0 < IZR d)%R as Hd' by (by apply IZR_lt).
  assert (IZR n / IZR d - IZR q = IZR r / IZR d)%R as ->.
  { rewrite Hdm, plus_IZR, mult_IZR. field. lra. }
  assert (r ≠ 0 → Zceil (IZR n / IZR d) = q + 1) as Hc.
  { intros Hr. unfold q. rewrite <- Zfloor_div by lia. rewrite Zceil_floor_neq; [done|]. rewrite Zfloor_div by lia. fold q. intros He.
    apply Hr. apply eq_IZR. assert (IZR q * IZR d = IZR n)%R as He2 by (rewrite He; field; lra).
    rewrite <- mult_IZR in He2. apply eq_IZR in He2. rewrite Hdm in He2. f_equal. lia. }
  assert (∀ c, Rcompare (IZR r / IZR d) (/ 2) = c → Z.compare (2 * r) d = c) as Hcmp.
  { intros c <-. rewrite <- (Rcompare_mult_r (IZR d)) by done. replace (IZR r / IZR d * IZR d)%R with (IZR r) by (field; lra).
    rewrite <- (Rcompare_mult_l 2) by lra. replace (2 * (/ 2 * IZR d))%R with (IZR d) by field.
    rewrite <- (mult_IZR 2 r). by rewrite Rcompare_IZR. }
  destruct (Rcompare (IZR r / IZR d) (/ 2)) eqn:Hr; specialize (Hcmp _ eq_refl).
  - apply Z.compare_eq in Hcmp. rewrite (proj2 (Z.ltb_ge _ _)) by lia. rewrite (proj2 (Z.eqb_eq _ _)) by lia. simpl.
    rewrite <- Z.negb_even. destruct (Z.even q); simpl; [done|]. rewrite Hc by lia. done.
  - apply (proj1 (Z.compare_lt_iff _ _)) in Hcmp. rewrite (proj2 (Z.ltb_ge _ _)) by lia. rewrite (proj2 (Z.eqb_neq _ _)) by lia. done.
  - apply (proj1 (Z.compare_gt_iff _ _)) in Hcmp. rewrite (proj2 (Z.ltb_lt _ _)) by lia. simpl. rewrite Hc by lia. done.
Qed.
Lemma ZnearestE_int n : ZnearestE (IZR n) = n.
Proof. apply Znearest_imp. rewrite Rminus_diag_eq by done. rewrite Rabs_R0. lra. Qed.
Lemma scaled_nearest m e : scaled (Z.pos m) e 2 = ZnearestE (100 * (IZR (Z.pos m) * bpow radix2 e)).
Proof.
  unfold scaled. change (10 ^ Z.of_nat 2) with 100. destruct (Z.leb_spec 0 e).
  - rewrite <- (ZnearestE_int (_ * _)). f_equal. rewrite !mult_IZR. rewrite <- IZR_Zpower by done. change (radix_val radix2) with 2. ring.
  - rewrite div_half_even_nearest by (apply Z.pow_pos_nonneg; lia). f_equal. rewrite mult_IZR.
    replace (bpow radix2 e) with (/ bpow radix2 (- e))%R by (rewrite <- bpow_opp; f_equal; lia).
    change 2 with (radix_val radix2). rewrite IZR_Zpower by lia. unfold Rdiv. ring.
Qed.
Lemma ZnearestE_opp x : ZnearestE (- x) = - ZnearestE x.
Proof.
  rewrite Znearest_opp. f_equal. unfold Znearest. destruct (Rcompare _ _); try done. f_equal.
  rewrite negb_involutive. rewrite Z.even_opp, Z.add_1_r, Z.even_succ, <- Z.negb_even. done.
Qed.
Lemma ZnearestE_err x : (Rabs (x - IZR (ZnearestE x)) <= / 2)%R.
Proof. apply Znearest_half. Qed.
Lemma ZnearestE_mono x y : (x <= y)%R → ZnearestE x ≤ ZnearestE y.
Proof. apply valid_rnd_N. Qed.

Lemma fmt_denotes v x : frepr v x → denotes (fmt_fixed v 2) (IZR (ZnearestE (100 * x)) / 100).
Proof.
  intros (b & Hb & Hf & Hx). destruct b as [s| | |s m e Hbd]; try done; simpl in Hb, Hx; subst v x.
  - exists 0, 100. rewrite Rmult_0_r. rewrite ZnearestE_int. split; [by destruct s|]. split; [lia|]. done.
  - cbn [fmt_fixed]. assert (0 ≤ scaled (Z.pos m) e 2) as Hs.
    { rewrite scaled_nearest. rewrite <- (ZnearestE_int 0). apply ZnearestE_mono. apply Rmult_le_pos; [lra|]. apply Rmult_le_pos; [by apply IZR_le|apply bpow_ge_0]. }
    destruct (read_point _ Hs) as [R1 R2]. unfold Defs.F2R. simpl Fnum. simpl Fexp. destruct s.
    + exists (- scaled (Z.pos m) e 2), 100. split; [rewrite read_num_neg, R1; done|]. split; [lia|]. f_equal. f_equal.
      rewrite scaled_nearest, <- ZnearestE_opp. f_equal. simpl cond_Zopp. change (Z.neg m) with (- Z.pos m). rewrite opp_IZR. ring.
    + exists (scaled (Z.pos m) e 2), 100. split; [exact R2|]. split; [lia|]. f_equal. f_equal.
      rewrite scaled_nearest. done.
Qed.

(** ** the text of a duration *)
Definition small_value (n : Z) : R := (IZR (ZnearestE (100 * rnd (rnd (IZR n) / 1000000))) / 100)%R.
Lemma million_repr : frepr (fofZ 1000000) 1000000.
Proof. apply frepr_small. lia. Qed.
Lemma small_repr n : in_int64 n → frepr (fdiv (fofZ n) (fofZ 1000000)) (rnd (rnd (IZR n) / 1000000)).
Proof.
  intros Hn. destruct (frepr_int64 n Hn) as [H1 H2]. apply frepr_div; [done|apply million_repr|lra|].
  apply (rnd_fits _ 63); [lia|]. unfold Rdiv. rewrite Rabs_mult. rewrite (Rabs_pos_eq (/ 1000000)) by lra.
  pose proof (Rabs_pos (rnd (IZR n))). lra.
Qed.
Lemma nanos_denotes n : in_int64 n →
  denotes (nanos_text n) (if Z.leb 10000000 n then IZR (Z.quot n 1000000) else small_value n).
Proof.
  intros Hn. unfold nanos_text. destruct (Z.leb_spec 10000000 n).
  - exists (Z.quot n 1000000), 1. assert (0 ≤ Z.quot n 1000000) as Hq by (apply Z.quot_pos; lia). split; [|split; [lia|lra]].
    unfold dec_int. rewrite (proj2 (Z.ltb_ge _ _)) by lia. rewrite <- (sapp_nil_r (dec_nat _)). by rewrite read_num_nat.
  - apply fmt_denotes. by apply small_repr.
Qed.
Lemma small_mono n1 n2 : n1 ≤ n2 → (small_value n1 <= small_value n2)%R.
Proof.
  intros H. unfold small_value. apply Rmult_le_compat_r; [lra|]. apply IZR_le, ZnearestE_mono.
  apply Rmult_le_compat_l; [lra|]. apply rnd_le. apply Rmult_le_compat_r; [lra|]. by apply rnd_le, IZR_le.
Qed.
Lemma small_10ms : small_value 10000000 = 10%R.
Proof.
  unfold small_value. rewrite rnd_int by lia. replace (10000000 / 1000000)%R with 10%R by lra. rewrite (rnd_int 10) by lia.
  rewrite <- mult_IZR. rewrite ZnearestE_int. change (100 * 10) with 1000. lra.
Qed.

Lemma thm_nanos_mono n1 n2 x1 x2 : in_int64 n1 → in_int64 n2 → n1 ≤ n2 →
  denotes (nanos_text n1) x1 → denotes (nanos_text n2) x2 → (x1 <= x2)%R.
Proof.
  intros H1 H2 Hle D1 D2.
  rewrite (denotes_fun _ _ _ D1 (nanos_denotes n1 H1)), (denotes_fun _ _ _ D2 (nanos_denotes n2 H2)).
  destruct (Z.leb_spec 10000000 n1), (Z.leb_spec 10000000 n2); try lia.
  - apply IZR_le. apply Z.quot_le_mono; lia.
  - eapply Rle_trans; [apply small_mono; instantiate (1 := 10000000); lia|]. rewrite small_10ms. apply IZR_le.
    apply (Z.quot_le_mono 10000000 n2 1000000); lia.
  - by apply small_mono.
Qed.

Lemma rnd_err x B : (0 <= B)%R → (x = 0 ∨ bpow radix2 (-1022) <= Rabs x)%R → (Rabs x <= B)%R → (Rabs (rnd x - x) <= eps * B)%R.
Proof.
  intros HB H Hx. destruct (Req_dec x 0) as [->|Hx0].
  - rewrite rnd_0, Rminus_diag_eq, Rabs_R0 by done. apply Rmult_le_pos; [apply Rlt_le, eps_pos|done].
  - destruct H as [H|H]; [done|]. destruct (rnd_rel x H) as (e & He & ->). rewrite <- eps_u53 in He.
    replace (x * (1 + e) - x)%R with (e * x)%R by ring. rewrite Rabs_mult. apply Rmult_le_compat; try apply Rabs_pos; done.
Qed.
Lemma small_error n B : in_int64 n → (1 <= B)%R → (Rabs (IZR n) <= B)%R →
  (Rabs (small_value n - IZR n / 1000000) <= / 200 + eps * B / 1000000 + Rabs (rnd (IZR n) - IZR n) * (1 + eps) / 1000000)%R.
Proof.
  intros Hn HB Hx. unfold small_value. set (y := rnd (IZR n)). set (z := rnd (y / 1000000)).
  pose proof (ZnearestE_err (100 * z)) as H1.
  assert (Rabs (z - y / 1000000) <= eps * ((Rabs (y - IZR n) + B) / 1000000))%R as H2.
  { apply rnd_err.
    - pose proof (Rabs_pos (y - IZR n)). lra.
    - destruct (decide (n = 0)) as [->|Hn0]; [left; unfold y; rewrite rnd_0; lra|]. right.
      pose proof (rnd_int_big n Hn0) as Hb. fold y in Hb. unfold Rdiv. rewrite Rabs_mult, (Rabs_pos_eq (/ 1000000)) by lra.
      assert (bpow radix2 (-1022) <= bpow radix2 (-20))%R by (by apply bpow_le).
      assert (bpow radix2 (-20) = / 1048576)%R as Hb20 by (simpl; unfold bpow; simpl; lra). lra.
    - unfold Rdiv. rewrite Rabs_mult, (Rabs_pos_eq (/ 1000000)) by lra. apply Rmult_le_compat_r; [lra|].
      replace y with ((y - IZR n) + IZR n)%R at 1 by ring. eapply Rle_trans; [apply Rabs_triang|]. lra. }
  replace (IZR (ZnearestE (100 * z)) / 100 - IZR n / 1000000)%R
    with (- ((100 * z - IZR (ZnearestE (100 * z))) / 100) + (z - y / 1000000) + (y - IZR n) / 1000000)%R by field.
  eapply Rle_trans; [apply Rabs_triang|]. eapply Rle_trans; [apply Rplus_le_compat_r, Rabs_triang|].
  rewrite Rabs_Ropp. unfold Rdiv at 1. rewrite Rabs_mult, (Rabs_pos_eq (/ 100)) by lra.
  unfold Rdiv at 2. rewrite (Rabs_mult _ (/ 1000000)), (Rabs_pos_eq (/ 1000000)) by lra. unfold Rdiv in H2. lra.
Qed.
Lemma thm_nanos_error n x : in_int64 n → denotes (nanos_text n) x →
  (10000000 ≤ n → x = IZR (n / 1000000)) ∧
  (-2 ^ 53 ≤ n < 10000000 → (Rabs (x - IZR n / 1000000) <= 0.005001)%R) ∧
  (n < 10000000 → (Rabs (x - IZR n / 1000000) <= 0.0071)%R).
Proof.
  intros Hn D. rewrite (denotes_fun _ _ _ D (nanos_denotes n Hn)). clear x D.
  assert (eps = / 9007199254740992)%R as He by (unfold eps; simpl; f_equal; lra).
  split; [|split]; intros H.
  - rewrite (proj2 (Z.leb_le _ _)) by lia. by rewrite Z.quot_div_nonneg by lia.
  - rewrite (proj2 (Z.leb_gt _ _)) by lia.
    assert (Z.abs n ≤ 2 ^ 53) as Ha by lia.
    pose proof (small_error n (bpow radix2 53) Hn) as E. rewrite (rnd_int n) in E by done. replace (IZR n - IZR n)%R with 0%R in E by ring. rewrite Rabs_R0 in E.
    assert (bpow radix2 53 = 9007199254740992)%R as Hb by (unfold bpow; simpl; lra). rewrite Hb in E.
    rewrite He in E. assert (Rabs (IZR n) <= 9007199254740992)%R as Hx by (rewrite <- Hb; by apply IZR_abs_le).
    specialize (E ltac:(lra) Hx). lra.
  - rewrite (proj2 (Z.leb_gt _ _)) by lia.
    assert (bpow radix2 63 = 9223372036854775808)%R as Hb by (unfold bpow; simpl; lra).
    assert (Rabs (IZR n) <= 9223372036854775808)%R as Hx.
    { rewrite <- Hb. apply IZR_abs_le; [done|]. unfold in_int64 in Hn. lia. }
    pose proof (small_error n 9223372036854775808 Hn ltac:(lra) Hx) as E.
    assert (Rabs (rnd (IZR n) - IZR n) <= eps * 9223372036854775808)%R as Hr.
    { apply rnd_err; [lra| |done]. destruct (decide (n = 0)) as [->|Hn0]; [by left|right].
      pose proof bpow_small. assert (1 <= Rabs (IZR n))%R; [|lra]. rewrite <- abs_IZR. apply IZR_le. lia. }
    rewrite He in *. lra.
Qed.
Lemma thm_nanos_number n : in_int64 n → ∃ x, denotes (nanos_text n) x.
Proof. intros H. eexists. by apply nanos_denotes. Qed.
Lemma thm_nanos_refuted : ∃ n x, in_int64 n ∧ n < 10000000 ∧ denotes (nanos_text n) x ∧ (0.006 < Rabs (x - IZR n / 1000000))%R.
Proof.
  exists (-9163479355939373626), (IZR (-916347935593938) / IZR 100)%R. split; [done|]. split; [done|]. split.
  - exists (-916347935593938), 100. split; [vm_compute; reflexivity|]. done.
  - unfold Rabs. destruct (Rcase_abs _); lra.
Qed.

(** ** gauges *)
Lemma finite_repr (v : f64) : valid_binary 53 1024 v = true → ffinite v = true → frepr v (fval v).
Proof.
  intros Hv Hf. set (b := BinarySingleNaN.SF2B v Hv). assert (BinarySingleNaN.B2SF b = v) as Hb by apply BinarySingleNaN.B2SF_SF2B.
  assert (frepr v (BinarySingleNaN.B2R b)) as H.
  { exists b. split; [done|]. split; [|done]. rewrite <- BinarySingleNaN.is_finite_SF_B2SF, Hb. by destruct v. }
  by rewrite (frepr_fval _ _ H).
Qed.
Lemma thm_gauge_text o v : valid_binary 53 1024 v = true → ffinite v = true →
  fltb v f_tenth && fgtb v f_mtenth = false →
  ∃ x, denotes (gauge_text o v) x ∧ (Rabs (x - fval v) <= 0.005)%R.
Proof.
  intros Hv Hf Hs. unfold gauge_text. rewrite Hs. eexists. split; [by apply fmt_denotes, finite_repr|].
  pose proof (ZnearestE_err (100 * fval v)) as H.
  replace (IZR (ZnearestE (100 * fval v)) / 100 - fval v)%R with (- ((100 * fval v - IZR (ZnearestE (100 * fval v))) / 100))%R by field.
  rewrite Rabs_Ropp. unfold Rdiv. rewrite Rabs_mult, (Rabs_pos_eq (/ 100)) by lra. lra.
Qed.
Lemma gauge_not_finite o v : ffinite v = false → read_num (gauge_text o v) = None ∧
  gauge_text o v = match v with S754_nan => "NaN" | S754_infinity true => "-Inf" | _ => "+Inf" end.
Proof. destruct v as [|[]| |]; try done; intros _; (split; vm_compute; reflexivity). Qed.
