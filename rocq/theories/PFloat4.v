(** * Proofs: average and standard deviation *)
From Coq Require Import Reals Lra Psatz.
From Flocq Require Import Core.
From Verif Require Import SFloat2 SApi PApi PAgg PContent PMerge PMerge2 SFloat PFloat PFloat2 PFloat3.

#[local] Arguments bpow : simpl never.

Lemma frepr_of_finite f : valid_binary 53 1024 f = true → ffinite f = true → frepr f (fval f).
Proof.
  intros Hv Hf. set (b := BinarySingleNaN.SF2B f Hv). assert (BinarySingleNaN.B2SF b = f) as Hb by apply BinarySingleNaN.B2SF_SF2B.
  assert (frepr f (BinarySingleNaN.B2R b)) as H.
  { exists b. split; [done|]. split; [|done]. rewrite <- BinarySingleNaN.is_finite_SF_B2SF, Hb. by destruct f. }
  by rewrite (frepr_fval _ _ H).
Qed.

(** ** the average *)
Lemma thm_avg_finite j : in_int64 (t_count (j_timer j)) → in_int64 (t_sum (j_timer j)) → ffinite (job_avg j) = true.
Proof.
  intros Hc Hs. unfold job_avg. destruct (Z.eqb_spec (t_count (j_timer j)) 0) as [|Hn]; [done|].
  destruct (frepr_int64 _ Hc) as [C1 C2]. destruct (frepr_int64 _ Hs) as [S1 S2]. pose proof (rnd_int_big _ Hn) as Hb.
  eapply frepr_finite. apply frepr_div; [exact S1|exact C1| |].
  - intros H0. rewrite H0, Rabs_R0 in Hb. lra.
  - apply (rnd_fits _ 63); [lia|]. unfold Rdiv. rewrite Rabs_mult, Rabs_inv.
    rewrite <- (Rmult_1_r (bpow radix2 63)). apply Rmult_le_compat; [apply Rabs_pos| |done|].
    + left. apply Rinv_0_lt_compat. lra.
    + rewrite <- Rinv_1. apply Rinv_le_contravar; lra.
Qed.

Lemma within_div_exact k x t d : (0 < d)%R → within_roundings k x t → within_roundings k (x / d) (t / d).
Proof.
  intros Hd H. unfold within_roundings in *. replace (x / d - t / d)%R with ((x - t) / d)%R by (field; lra).
  unfold Rdiv. rewrite !Rabs_mult. rewrite <- Rmult_assoc. apply Rmult_le_compat_r; [apply Rabs_pos|done].
Qed.
Lemma div_nonneg a b : (0 <= a)%R → (0 < b)%R → (0 <= a / b)%R.
Proof. intros Ha Hb. apply Rmult_le_pos; [done|]. left. by apply Rinv_0_lt_compat. Qed.
Lemma within_int n : within_roundings 1 (rnd (IZR n)) (IZR n).
Proof.
  apply within_rnd; [|apply within_refl]. destruct (decide (n = 0)) as [->|Hn]; [by left|right].
  eapply Rle_trans; [apply bpow_small|]. rewrite <- abs_IZR. apply IZR_le. lia.
Qed.
Lemma w64_small n : 0 ≤ n ≤ 2 ^ 53 → w64 n = n.
Proof. intros H. apply w64_id. unfold in_int64. lia. Qed.
Lemma bpow_53 : bpow radix2 53 = 9007199254740992%R.
Proof. unfold bpow. simpl. lra. Qed.
Lemma bpow_m53 : (bpow radix2 (-1022) <= / 9007199254740992)%R.
Proof.
  rewrite <- bpow_53, <- bpow_opp. by apply bpow_le.
Qed.
Lemma thm_avg k j l : describes k j l → l ≠ [] → zlength l ≤ 2 ^ 53 → in_int64 (zsum l) →
  ffinite (job_avg j) = true ∧ within_roundings 2 (fval (job_avg j)) (mean l).
Proof.
  intros (Hc & Hs & _) Hl Hn Hsum. unfold zlength in *.
  assert (1 ≤ Z.of_nat (length l)) as H1 by (destruct l; simpl; [done|lia]).
  rewrite w64_small in Hc by lia. rewrite w64_id in Hs by done.
  assert (frepr (job_avg j) (rnd (rnd (IZR (zsum l)) / IZR (Z.of_nat (length l))))) as Hr.
  { unfold job_avg. rewrite Hc, Hs. destruct (Z.eqb_spec (Z.of_nat (length l)) 0); [lia|].
    destruct (frepr_int64 _ Hsum) as [S1 S2]. apply frepr_div; [done|apply frepr_small; lia|apply IZR_neq; lia|].
    apply (rnd_fits _ 63); [lia|]. unfold Rdiv. rewrite Rabs_mult, Rabs_inv.
    assert (1 <= Rabs (IZR (Z.of_nat (length l))))%R as Hb by (rewrite <- abs_IZR; apply IZR_le; lia).
    rewrite <- (Rmult_1_r (bpow radix2 63)). apply Rmult_le_compat; [apply Rabs_pos| |done|].
    + left. apply Rinv_0_lt_compat. lra.
    + rewrite <- Rinv_1. apply Rinv_le_contravar; lra. }
  split; [by eapply frepr_finite|]. rewrite (frepr_fval _ _ Hr). unfold mean, zlength.
  assert (0 < IZR (Z.of_nat (length l)))%R as Hpos by (apply IZR_lt; lia).
  apply within_rnd.
  - destruct (decide (zsum l = 0)) as [->|Hz]; [left; rewrite rnd_0; unfold Rdiv; ring|right].
    pose proof (rnd_int_big _ Hz) as Hb. unfold Rdiv. rewrite Rabs_mult, Rabs_inv, (Rabs_pos_eq (IZR (Z.of_nat _))) by lra.
    eapply Rle_trans; [apply bpow_m53|]. rewrite <- (Rmult_1_l (/ 9007199254740992)).
    assert (IZR (Z.of_nat (length l)) <= 9007199254740992)%R by (apply IZR_le; lia).
    apply Rmult_le_compat; [lra|lra|done|]. apply Rinv_le_contravar; lra.
  - apply within_div_exact; [done|]. apply within_int.
Qed.

(** ** the exact formula *)
Lemma sq_dev_formula m l : sq_dev m l = (IZR (zsumsq l) - 2 * m * IZR (zsum l) + IZR (zlength l) * m * m)%R.
Proof.
  unfold zlength. induction l as [|x l IH]; [simpl; ring|]. cbn [sq_dev foldr zsumsq zsum length].
  unfold sq_dev in IH. rewrite IH. rewrite Nat2Z.inj_succ. unfold Z.succ. unfold zsumsq, zsum. rewrite !plus_IZR, mult_IZR. ring.
Qed.
Lemma sq_dev_nonneg m l : (0 <= sq_dev m l)%R.
Proof. induction l as [|x l IH]; simpl; [lra|]. pose proof (Rle_0_sqr (IZR x - m)) as H. unfold Rsqr in H. lra. Qed.
Definition vnum (l : list Z) : Z := zlength l * zsumsq l - zsum l * zsum l.
Lemma sq_dev_mean l : l ≠ [] → (sq_dev (mean l) l * IZR (zlength l) = IZR (vnum l))%R.
Proof.
  intros Hl. rewrite sq_dev_formula. unfold mean, vnum. rewrite minus_IZR, !mult_IZR.
  assert (IZR (zlength l) ≠ 0)%R by (apply IZR_neq; unfold zlength; destruct l; simpl; [done|lia]). field. done.
Qed.
Lemma vnum_nonneg l : 0 ≤ vnum l.
Proof.
  destruct (decide (l = [])) as [->|Hl]; [done|]. apply le_IZR. rewrite <- sq_dev_mean by done.
  apply Rmult_le_pos; [apply sq_dev_nonneg|]. apply IZR_le. unfold zlength. lia.
Qed.
Lemma stddev_formula l : 2 ≤ zlength l → sample_stddev l = R_sqrt.sqrt (IZR (vnum l) / IZR (zlength l * (zlength l - 1))).
Proof.
  intros H. unfold sample_stddev. f_equal. rewrite <- sq_dev_mean by (intros ->; unfold zlength in H; simpl in H; lia).
  rewrite mult_IZR, minus_IZR. assert (IZR (zlength l) ≠ 0)%R by (apply IZR_neq; lia).
  assert (IZR (zlength l) - 1 ≠ 0)%R by (rewrite <- minus_IZR; apply IZR_neq; lia). field. done.
Qed.

(** relative error, multiplicatively *)
Definition rel (d x t : R) : Prop := (Rabs (x - t) <= d * Rabs t)%R.
Lemma rel_rnd d x t : (x = 0 ∨ bpow radix2 (-1022) <= Rabs x)%R → (0 <= d)%R → rel d x t → rel ((1 + d) * (1 + eps) - 1) (rnd x) t.
Proof.
  intros Hx Hd H. unfold rel in *. pose proof eps_pos as He. pose proof (Rabs_pos t) as Ht.
  destruct (Req_dec x 0) as [->|Hx0].
  - rewrite rnd_0. eapply Rle_trans; [exact H|]. apply Rmult_le_compat_r; [done|]. nra.
  - destruct Hx as [Hx|Hx]; [done|]. destruct (rnd_rel x Hx) as (e & He' & ->). rewrite <- eps_u53 in He'.
    replace (x * (1 + e) - t)%R with ((x - t) * (1 + e) + t * e)%R by ring. eapply Rle_trans; [apply Rabs_triang|].
    rewrite !Rabs_mult. assert (Rabs (1 + e) <= 1 + eps)%R as H1.
    { eapply Rle_trans; [apply Rabs_triang|]. rewrite Rabs_R1. lra. }
    apply Rle_trans with (d * Rabs t * (1 + eps) + Rabs t * eps)%R; [|right; ring].
    apply Rplus_le_compat; [apply Rmult_le_compat; auto using Rabs_pos|apply Rmult_le_compat_l; auto].
Qed.
Lemma rel_div_exact d x t c : (0 < c)%R → rel d x t → rel d (x / c) (t / c).
Proof.
  intros Hd H. unfold rel in *. replace (x / c - t / c)%R with ((x - t) / c)%R by (field; lra).
  unfold Rdiv. rewrite !Rabs_mult. rewrite <- Rmult_assoc. apply Rmult_le_compat_r; [apply Rabs_pos|done].
Qed.
Lemma rel_sqrt d x t : (0 <= x)%R → (0 <= t)%R → rel d x t → rel d (R_sqrt.sqrt x) (R_sqrt.sqrt t).
Proof.
  intros Hx Ht H. unfold rel in *. pose proof (sqrt_pos x) as Sx. pose proof (sqrt_pos t) as St.
  rewrite (Rabs_pos_eq (R_sqrt.sqrt t)) by done. rewrite (Rabs_pos_eq t) in H by done.
  destruct (Req_dec t 0) as [->|Ht0].
  - rewrite Rmult_0_r in H. assert (x = 0)%R as ->. { pose proof (Rabs_pos (x - 0)). assert (Rabs (x - 0) = 0)%R as Hz by lra. destruct (Req_dec (x - 0) 0) as [|Hn]; [lra|]. by apply Rabs_no_R0 in Hn. }
    rewrite sqrt_0. rewrite Rminus_0_r, Rabs_R0. lra.
  - assert (0 < R_sqrt.sqrt t)%R as Spos by (apply sqrt_lt_R0; lra).
    assert (Rabs (R_sqrt.sqrt x - R_sqrt.sqrt t) * R_sqrt.sqrt t <= d * R_sqrt.sqrt t * R_sqrt.sqrt t)%R as Hm; [|by apply Rmult_le_reg_r in Hm].
    rewrite Rmult_assoc, sqrt_sqrt by done. eapply Rle_trans; [|exact H].
    replace (x - t)%R with ((R_sqrt.sqrt x - R_sqrt.sqrt t) * (R_sqrt.sqrt x + R_sqrt.sqrt t))%R.
    + rewrite Rabs_mult. apply Rmult_le_compat_l; [apply Rabs_pos|]. rewrite Rabs_pos_eq; lra.
    + rewrite <- (sqrt_sqrt x) at 3 by done. rewrite <- (sqrt_sqrt t) at 3 by done. ring.
Qed.
Lemma rel_within k x t : rel ((1 + eps) ^ k - 1) x t ↔ within_roundings k x t.
Proof. done. Qed.

(** ** the last two operations *)
Lemma stddev_tail num x (v n : Z) d : frepr num x → (x = 0 ∨ / 4 <= x)%R → (x <= bpow radix2 400)%R → 0 ≤ v → 2 ≤ n → n ≤ 2 ^ 26 →
  (0 <= d)%R → rel d x (IZR v) →
  ffinite (fsqrt (fdiv num (fofZ (w64 (n * w64 (n - 1)))))) = true ∧
  rel ((1 + d) * (1 + eps) * (1 + eps) - 1) (fval (fsqrt (fdiv num (fofZ (w64 (n * w64 (n - 1)))))))
    (R_sqrt.sqrt (IZR v / IZR (n * (n - 1)))).
Proof.
  intros Hx Hx4 Hxb Hv Hn Hn2 Hd Hr. pose proof eps_pos as He.
  assert (0 ≤ n * (n - 1) ≤ 2 ^ 52) as Hnn.
  { split; [nia|]. change (2 ^ 52) with (2 ^ 26 * 2 ^ 26). apply Z.mul_le_mono_nonneg; lia. }
  rewrite (w64_small (n - 1)) by lia. rewrite (w64_small (n * (n - 1))) by lia.
  set (dv := n * (n - 1)) in *. assert (1 ≤ dv) as Hdv by (unfold dv; nia).
  assert (0 < IZR dv)%R as Hdp by (apply IZR_lt; lia). assert (1 <= IZR dv)%R as Hd1 by (apply IZR_le; lia).
  assert (0 <= x)%R as Hx0 by (destruct Hx4; lra).
  assert (0 <= x / IZR dv)%R as Hq0 by (apply div_nonneg; lra).
  assert (frepr (fdiv num (fofZ dv)) (rnd (x / IZR dv))) as Hq.
  { apply frepr_div; [done|apply frepr_small; lia|lra|]. apply (rnd_fits _ 400); [lia|]. rewrite Rabs_pos_eq by done.
    apply Rle_trans with x; [|done]. unfold Rdiv. rewrite <- (Rmult_1_r x) at 2. apply Rmult_le_compat_l; [done|].
    rewrite <- Rinv_1. apply Rinv_le_contravar; lra. }
  assert (0 <= rnd (x / IZR dv))%R as Hr0 by (by apply rnd_pos).
  pose proof (frepr_sqrt _ _ Hq Hr0) as Hs.
  split; [by eapply frepr_finite|]. rewrite (frepr_fval _ _ Hs).
  assert (IZR dv <= 9007199254740992 / 2)%R as Hdb by (replace (9007199254740992 / 2)%R with 4503599627370496%R by lra; apply IZR_le; lia).
  assert (x = 0 ∨ / (2 * 9007199254740992) <= x / IZR dv)%R as Hq1.
  { destruct Hx4 as [->|Hx4]; [by left|right]. apply Rle_trans with (/ 4 * / (9007199254740992 / 2))%R; [right; field|].
    apply Rmult_le_compat; [lra| |done|]; [left; apply Rinv_0_lt_compat; lra|]. apply Rinv_le_contravar; lra. }
  assert (bpow radix2 (-54) = / (2 * 9007199254740992))%R as Hb54.
  { change (-54) with (-1 + -53). rewrite bpow_plus. change (-53) with (- (53)). rewrite bpow_opp, bpow_53. change (bpow radix2 (-1)) with (/ 2)%R. field. }
  assert (bpow radix2 (-1022) <= bpow radix2 (-54))%R as Hsm by (by apply bpow_le).
  assert (0 <= (1 + d) * (1 + eps) - 1)%R as Hd2 by nra.
  replace ((1 + d) * (1 + eps) * (1 + eps) - 1)%R with ((1 + ((1 + d) * (1 + eps) - 1)) * (1 + eps) - 1)%R by ring.
  apply rel_rnd; [|done|].
  - destruct Hq1 as [->|Hq1].
    + left. unfold Rdiv. rewrite Rmult_0_l, rnd_0. apply sqrt_0.
    + right. rewrite Rabs_pos_eq by apply sqrt_pos. assert (bpow radix2 (-54) <= rnd (x / IZR dv))%R as Hrr.
      { rewrite <- (rnd_bpow (-54)) by done. apply rnd_le. lra. }
      apply Rle_trans with (R_sqrt.sqrt (bpow radix2 (-54))); [|by apply sqrt_le_1_alt].
      change (-54) with (-27 + -27). rewrite bpow_plus. rewrite sqrt_square by apply bpow_ge_0. by apply bpow_le.
  - apply rel_sqrt; [done| |].
    + apply div_nonneg; [by apply IZR_le|done].
    + apply rel_rnd; [|done|by apply rel_div_exact].
      destruct Hq1 as [->|Hq1]; [left; unfold Rdiv; ring|right]. rewrite Rabs_pos_eq by done. lra.
Qed.

(** ** exact numerator *)
Lemma thm_stddev_exact k j l : describes k j l → 2 ≤ zlength l → zlength l ≤ 2 ^ 26 → zlength l * zsumsq l ≤ 2 ^ 53 →
  ffinite (job_stddev j) = true ∧ within_roundings 2 (fval (job_stddev j)) (sample_stddev l).
Proof.
  intros (Hc & Hs & Hss) Hn Hn2 Hb. set (n := zlength l) in *. pose proof (zsumsq_nonneg l) as Hq0. pose proof (vnum_nonneg l) as Hv.
  unfold vnum in Hv. fold n in Hv.
  assert (zsumsq l ≤ 2 ^ 53) as Hq by nia. destruct Hss as (Hex & _). destruct (Hex Hq) as [Hss _]. clear Hex.
  assert (Z.abs (zsum l) ≤ 2 ^ 27) as Hsum.
  { apply Z.abs_le. apply (Z.square_le_simpl_nonneg _ (2 ^ 27)) || idtac. assert (zsum l * zsum l ≤ 2 ^ 53) by lia. nia. }
  rewrite w64_small in Hc by lia. rewrite (w64_id (zsum l)) in Hs by (unfold in_int64; lia).
  set (num := fsub (fmul (fofZ n) (fofZ (zsumsq l))) (fmul (fofZ (zsum l)) (fofZ (zsum l)))).
  assert (frepr num (IZR (vnum l))) as Hnum.
  { assert (frepr (fmul (fofZ n) (fofZ (zsumsq l))) (IZR (n * zsumsq l))) as H1.
    { rewrite <- (rnd_int (n * zsumsq l)) by nia. rewrite mult_IZR. apply frepr_mul; [apply frepr_small; lia|apply frepr_small; lia|].
      rewrite <- mult_IZR. apply (rnd_fits _ 53); [lia|]. apply IZR_abs_le; [lia|nia]. }
    assert (frepr (fmul (fofZ (zsum l)) (fofZ (zsum l))) (IZR (zsum l * zsum l))) as H2.
    { rewrite <- (rnd_int (zsum l * zsum l)) by nia. rewrite mult_IZR. apply frepr_mul; [apply frepr_small; lia|apply frepr_small; lia|].
      rewrite <- mult_IZR. apply (rnd_fits _ 53); [lia|]. apply IZR_abs_le; [lia|nia]. }
    unfold vnum. fold n. rewrite <- (rnd_int (n * zsumsq l - zsum l * zsum l)) by nia. rewrite minus_IZR. apply frepr_sub; [done|done|].
    rewrite <- minus_IZR. apply (rnd_fits _ 53); [lia|]. apply IZR_abs_le; [lia|nia]. }
  assert (job_stddev j = fsqrt (fdiv num (fofZ (w64 (n * w64 (n - 1)))))) as ->.
  { unfold job_stddev. rewrite Hc, Hs, Hss. destruct (Z.eqb_spec n 0); [lia|]. destruct (Z.eqb_spec n 1); [lia|]. done. }
  rewrite stddev_formula by done. fold n.
  destruct (stddev_tail num (IZR (vnum l)) (vnum l) n 0) as [H1 H2]; try done.
  - destruct (decide (vnum l = 0)) as [->|]; [by left|right]. assert (1 <= IZR (vnum l))%R by (apply IZR_le; unfold vnum in *; lia). lra.
  - apply Rle_trans with (bpow radix2 53); [|by apply bpow_le]. rewrite bpow_53. apply IZR_le. unfold vnum. nia.
  - lra.
  - unfold rel. rewrite Rminus_diag_eq, Rabs_R0 by done. pose proof (Rabs_pos (IZR (vnum l))). lra.
  - split; [done|]. unfold within_roundings. replace ((1 + eps) ^ 2 - 1)%R with ((1 + 0) * (1 + eps) * (1 + eps) - 1)%R by ring. exact H2.
Qed.

(** ** the general case *)
Lemma zsumsq_bound l : Forall in_int64 l → zsumsq l ≤ zlength l * 2 ^ 126.
Proof.
  unfold zlength. induction 1 as [|x l Hx _ IH]; [done|]. cbn [zsumsq foldr length]. unfold zsumsq in IH. rewrite Nat2Z.inj_succ.
  assert (x * x ≤ 2 ^ 126) as Hb. { change (2 ^ 126) with (2 ^ 63 * 2 ^ 63). unfold in_int64 in Hx. nia. }
  lia.
Qed.
Lemma within_bounds k x t : (0 <= t)%R → within_roundings k x t → ((2 - (1 + eps) ^ k) * t <= x <= (1 + eps) ^ k * t)%R.
Proof. intros Ht H. unfold within_roundings in H. rewrite (Rabs_pos_eq t) in H by done. apply Rabs_le_inv in H. lra. Qed.
Lemma within_zero k x : within_roundings k x 0 → x = 0%R.
Proof.
  intros H. unfold within_roundings in H. rewrite Rabs_R0, Rmult_0_r, Rminus_0_r in H.
  pose proof (Rabs_pos x). assert (Rabs x = 0)%R as Hz by lra. destruct (Req_dec x 0) as [|Hn]; [done|]. by apply Rabs_no_R0 in Hn.
Qed.
Lemma stddev_num (n : Z) ss (y : R) l k q : frepr ss y → within_roundings k y (IZR (zsumsq l)) → Forall in_int64 l →
  n = zlength l → 2 ≤ n → n ≤ 2 ^ 26 → in_int64 (zsum l) → (1 <= q)%R →
  (IZR (n * zsumsq l + zsum l * zsum l) <= q * IZR (vnum l))%R →
  (((1 + eps) ^ (k + 3) - 1) * q <= / 2)%R →
  ∃ x, frepr (fsub (fmul (fofZ n) ss) (fmul (fofZ (zsum l)) (fofZ (zsum l)))) x ∧
    (x = 0 ∨ / 4 <= x)%R ∧ (x <= bpow radix2 400)%R ∧
    rel ((1 + ((1 + eps) ^ (k + 3) - 1) * q) * (1 + eps) - 1) x (IZR (vnum l)).
Proof.
  intros Hy Hw Hl Hn Hn2 Hn3 Hs Hq HN Hdq. pose proof eps_pos as He.
  pose proof (zsumsq_nonneg l) as HQ0. pose proof (zsumsq_bound l Hl) as HQb. rewrite <- Hn in HQb.
  pose proof (vnum_nonneg l) as HV0. set (Q := zsumsq l) in *. set (S := zsum l) in *. set (V := vnum l) in *.
  set (D := ((1 + eps) ^ (k + 3) - 1)%R) in *.
  assert (0 <= D)%R as HD0 by (unfold D; pose proof (pow_eps_ge (k + 3)); lra).
  assert (D <= / 2)%R as HD2 by nra.
  assert ((1 + eps) ^ k <= (1 + eps) ^ (k + 3))%R as Hk3 by (apply Rle_pow; [lra|lia]).
  assert ((1 + eps) ^ k <= 3 / 2)%R as Hk by (unfold D in HD2; lra).
  assert (0 <= IZR Q)%R as HQr by (by apply IZR_le).
  destruct (within_bounds k y (IZR Q) HQr Hw) as [Hylo Hyhi].
  assert (0 <= y)%R as Hy0 by nra.
  assert (y = 0 ∨ / 2 <= y)%R as Hy2.
  { destruct (decide (Q = 0)) as [HQz|HQz].
    - left. apply (within_zero k). by rewrite HQz in Hw.
    - right. assert (1 <= IZR Q)%R by (apply IZR_le; lia). nra. }
  assert (2 <= IZR n)%R as Hnr by (by apply IZR_le).
  assert (IZR n <= bpow radix2 26)%R as Hnb.
  { rewrite <- (Rabs_pos_eq (IZR n)) by lra. apply IZR_abs_le; lia. }
  assert (IZR Q <= bpow radix2 152)%R as HQr2.
  { rewrite <- (Rabs_pos_eq (IZR Q)) by lra. apply IZR_abs_le; [lia|]. rewrite Z.abs_eq by lia. etransitivity; [exact HQb|].
    change (2 ^ 152) with (2 ^ 26 * 2 ^ 126). apply Z.mul_le_mono_nonneg_r; lia. }
  assert (y <= bpow radix2 153)%R as Hyb.
  { change 153 with (1 + 152). rewrite bpow_plus. change (bpow radix2 1) with 2%R. nra. }
  assert (0 <= IZR n * y)%R as Hny0 by nra.
  assert (IZR n * y <= bpow radix2 179)%R as Hnyb.
  { change 179 with (26 + 153). rewrite bpow_plus. apply Rmult_le_compat; lra. }
  assert (frepr (fmul (fofZ n) ss) (rnd (IZR n * y))) as Ha.
  { apply frepr_mul; [apply frepr_small; lia|done|]. apply (rnd_fits _ 179); [lia|]. rewrite Rabs_pos_eq by done. done. }
  set (a := rnd (IZR n * y)) in *.
  assert (within_roundings (k + 1) a (IZR (n * Q))) as Haw.
  { rewrite Nat.add_1_r. apply within_rnd.
    - destruct Hy2 as [->|Hy2]; [left; ring|right]. rewrite Rabs_pos_eq by done. pose proof bpow_small. nra.
    - rewrite mult_IZR. pose proof (within_mul 0 k _ _ _ _ (within_refl 0 (IZR n)) Hw) as Hm. exact Hm. }
  assert (0 <= a)%R as Ha0 by (by apply rnd_pos).
  assert (a <= bpow radix2 179)%R as Hab by (rewrite <- (Rabs_pos_eq a) by done; apply rnd_abs_le; [lia|rewrite Rabs_pos_eq by done; done]).
  destruct (frepr_square S Hs) as (b & Hb & Hb1 & Hbb & Hbw).
  assert (0 <= b)%R as Hb0 by (destruct Hb1; lra).
  assert (0 ≤ n * Q) as HnQ by nia. assert (0 ≤ S * S) as HSS by nia.
  assert (rel (D * q) (a - b) (IZR V)) as Hrel.
  { unfold rel. unfold V at 1, vnum. rewrite <- Hn. fold Q S. rewrite minus_IZR.
    replace (a - b - (IZR (n * Q) - IZR (S * S)))%R with ((a - IZR (n * Q)) + - (b - IZR (S * S)))%R by ring.
    eapply Rle_trans; [apply Rabs_triang|]. rewrite Rabs_Ropp.
    assert (within_roundings (k + 3) a (IZR (n * Q))) as Haw' by (apply (within_mono (k + 1)); [lia|done]).
    assert (within_roundings (k + 3) b (IZR (S * S))) as Hbw' by (apply (within_mono 3); [lia|done]).
    unfold within_roundings in Haw', Hbw'. fold D in Haw', Hbw'.
    rewrite (Rabs_pos_eq (IZR (n * Q))) in Haw' by (by apply IZR_le). rewrite (Rabs_pos_eq (IZR (S * S))) in Hbw' by (by apply IZR_le).
    rewrite (Rabs_pos_eq (IZR V)) by (by apply IZR_le). rewrite plus_IZR in HN.
    apply Rle_trans with (D * (IZR (n * Q) + IZR (S * S)))%R; [lra|]. rewrite Rmult_assoc. by apply Rmult_le_compat_l. }
  assert (a - b = 0 ∨ / 2 <= a - b)%R as Hab2.
  { destruct (decide (V = 0)) as [HVz|HVz].
    - left. unfold rel in Hrel. rewrite HVz, Rabs_R0, Rmult_0_r, Rminus_0_r in Hrel.
      pose proof (Rabs_pos (a - b)). assert (Rabs (a - b) = 0)%R as Hz by lra. destruct (Req_dec (a - b) 0) as [|Hne]; [done|]. by apply Rabs_no_R0 in Hne.
    - right. assert (1 <= IZR V)%R as HV1 by (apply IZR_le; lia). unfold rel in Hrel. rewrite (Rabs_pos_eq (IZR V)) in Hrel by lra.
      apply Rabs_le_inv in Hrel. nra. }
  assert (0 <= a - b)%R as Hab0 by (destruct Hab2; lra).
  exists (rnd (a - b)). split; [|split; [|split]].
  - apply frepr_sub; [done|done|]. apply (rnd_fits _ 179); [lia|]. rewrite Rabs_pos_eq by done. lra.
  - destruct Hab2 as [->|Hab2]; [left; apply rnd_0|right]. apply Rle_trans with (bpow radix2 (-2)); [right; unfold bpow; simpl; lra|].
    rewrite <- (rnd_bpow (-2)) by done. apply rnd_le. assert (bpow radix2 (-2) = / 4)%R as -> by (unfold bpow; simpl; lra). lra.
  - rewrite <- (Rabs_pos_eq (rnd _)) by (by apply rnd_pos). apply rnd_abs_le; [lia|]. rewrite Rabs_pos_eq by done.
    apply Rle_trans with (bpow radix2 179); [lra|]. by apply bpow_le.
  - apply rel_rnd; [|nra|done]. destruct Hab2 as [Hab2|Hab2]; [by left|right]. rewrite Rabs_pos_eq by done.
    eapply Rle_trans; [|exact Hab2]. apply Rle_trans with (bpow radix2 (-1)); [by apply bpow_le|]. right. unfold bpow. simpl. lra.
Qed.

Lemma thm_stddev_general k j l c : describes k j l → Forall in_int64 l → 2 ≤ zlength l → zlength l ≤ 2 ^ 26 → in_int64 (zsum l) →
  (0 <= c)%R → (Rabs (mean l) <= c * sample_stddev l)%R →
  (((1 + eps) ^ (k + 3) - 1) * (1 + 4 * c * c) <= / 2)%R →
  ffinite (job_stddev j) = true ∧
  (Rabs (fval (job_stddev j) - sample_stddev l) <=
    ((1 + ((1 + eps) ^ (k + 3) - 1) * (1 + 4 * c * c)) * (1 + eps) ^ 3 - 1) * sample_stddev l)%R.
Proof.
  intros (Hc & Hs & Hss) Hl Hn Hn2 Hsum Hc0 Hmean Hd. set (q := (1 + 4 * c * c)%R) in *.
  assert (l ≠ []) as Hne by (intros ->; unfold zlength in Hn; simpl in Hn; lia).
  destruct Hss as (_ & Hval & Hfin & _ & Hw).
  pose proof (frepr_of_finite _ Hval Hfin) as Hy. set (n := zlength l) in *.
  pose proof (vnum_nonneg l) as HV0.
  assert (0 < IZR n)%R as Hnp by (apply IZR_lt; lia). assert (2 <= IZR n)%R as Hnr by (by apply IZR_le).
  assert (1 <= q)%R as Hq by (unfold q; nra).
  pose proof (sqrt_pos (IZR (vnum l) / IZR (n * (n - 1)))) as Hsd0. rewrite <- stddev_formula in Hsd0 by done.
  assert (IZR (n * zsumsq l + zsum l * zsum l) <= q * IZR (vnum l))%R as HN.
  { assert (sample_stddev l * sample_stddev l = IZR (vnum l) / IZR (n * (n - 1)))%R as Hsq.
    { rewrite stddev_formula by done. apply sqrt_sqrt. apply div_nonneg; [by apply IZR_le|apply IZR_lt; nia]. }
    assert (mean l * mean l <= c * c * (sample_stddev l * sample_stddev l))%R as Hm2.
    { replace (mean l * mean l)%R with (Rabs (mean l) * Rabs (mean l))%R by (rewrite <- Rabs_mult; apply Rabs_pos_eq, Rle_0_sqr).
      replace (c * c * (sample_stddev l * sample_stddev l))%R with ((c * sample_stddev l) * (c * sample_stddev l))%R by ring.
      apply Rmult_le_compat; auto using Rabs_pos. }
    rewrite Hsq in Hm2.
    assert (IZR (zsum l * zsum l) <= c * c * IZR (vnum l) * (IZR n / (IZR n - 1)))%R as HS.
    { apply (Rmult_le_compat_l (IZR n * IZR n)) in Hm2; [|nra]. unfold mean in Hm2. fold n in Hm2.
      replace (IZR n * IZR n * (IZR (zsum l) / IZR n * (IZR (zsum l) / IZR n)))%R with (IZR (zsum l * zsum l)) in Hm2 by (rewrite mult_IZR; field; lra).
      eapply Rle_trans; [exact Hm2|]. right. rewrite mult_IZR, minus_IZR. field. split; lra. }
    assert (IZR n / (IZR n - 1) <= 2)%R as Hn1.
    { apply (Rmult_le_reg_r (IZR n - 1)); [lra|]. unfold Rdiv. rewrite Rmult_assoc, Rinv_l by lra. lra. }
    assert (0 <= IZR (vnum l))%R as HVr by (by apply IZR_le).
    assert (IZR (zsum l * zsum l) <= 2 * (c * c * IZR (vnum l)))%R as HS2.
    { eapply Rle_trans; [exact HS|]. rewrite (Rmult_comm 2). apply Rmult_le_compat_l; [|done]. nra. }
    assert (n * zsumsq l + zsum l * zsum l = vnum l + 2 * (zsum l * zsum l)) as -> by (unfold vnum; fold n; ring).
    rewrite plus_IZR, (mult_IZR 2). unfold q. nra. }
  destruct (stddev_num n _ _ l k q Hy Hw Hl eq_refl Hn Hn2 Hsum Hq HN Hd) as (x & Hx & Hx4 & Hxb & Hxr).
  set (D := (((1 + eps) ^ (k + 3) - 1))%R) in *. pose proof eps_pos as He.
  assert (0 <= D)%R as HD0 by (unfold D; pose proof (pow_eps_ge (k + 3)); lra).
  assert (n * zsumsq l + 0 = n * zsumsq l) as _ by lia.
  set (num := fsub (fmul (fofZ n) (t_ss (j_timer j))) (fmul (fofZ (zsum l)) (fofZ (zsum l)))) in *.
  assert (job_stddev j = fsqrt (fdiv num (fofZ (w64 (n * w64 (n - 1)))))) as ->.
  { unfold job_stddev. rewrite Hc, Hs. rewrite (w64_small n) by lia. rewrite (w64_id (zsum l)) by done.
    destruct (Z.eqb_spec n 0); [lia|]. destruct (Z.eqb_spec n 1); [lia|]. done. }
  assert (0 <= (1 + D * q) * (1 + eps) - 1)%R as Hdd by (assert (0 <= D * q)%R by nra; nra).
  destruct (stddev_tail num x (vnum l) n _ Hx Hx4 Hxb HV0 Hn Hn2 Hdd Hxr) as [H1 H2].
  split; [done|]. unfold rel in H2. rewrite stddev_formula in Hsd0 |- * by done. fold n in Hsd0 |- *. rewrite (Rabs_pos_eq (R_sqrt.sqrt _)) in H2 by done.
  eapply Rle_trans; [exact H2|]. right. ring.
Qed.

(** ** the jobs healthd sees are described by their completions *)
Lemma thm_describes d retain s (hosts : list (list (Z * aop) * Z)) (is : list ia) j ja :
  0 < d → d ≤ retain →
  Forall2 (λ i ht, reports d retain ht.1 ht.2 s i) is hosts →
  (∀ ht, ht ∈ hosts → host_int64 ht.1) →
  ia_jobs (merge_all s is) !! j = Some ja →
  let l := map snd (completions_of (of_job j (concat (map (λ ht, cmds_in d s ht.1) hosts)))) in
  Forall in_int64 l ∧ describes (3 + length l + length hosts) ja l.
Proof.
  intros Hd Hr HF Hi Hj l.
  destruct (thm_merged_ss d retain s hosts is Hd Hr HF Hi) as [_ HJ]. destruct (HJ _ _ Hj) as [_ HT]. clear HJ.
  assert (looks (λ _, False) (merge_all s is) (concat (map (λ ht, cmds_in d s ht.1) hosts))) as [_ LJ].
  { apply looks_merge_all. apply Forall2_map_r. eapply Forall2_impl; [exact HF|]. intros i ht Hrep. 
    eapply reports_looks; [exact Hd|exact Hr|exact Hrep|]. done. }
  specialize (LJ j). rewrite Hj in LJ. destruct LJ as [_ LJ]. destruct LJ as [_ [LC LS _] _ _ _ _ _]. fold l in LC, LS, HT.
  split; [|split; [exact LC|split; [exact LS|exact HT]]].
  apply completions_int64. intros c Hcc. unfold of_job in Hcc. apply elem_of_list_filter in Hcc as [_ Hcc].
  apply elem_of_list_In, in_concat in Hcc as (L & HL & Hcc). apply in_map_iff in HL as (ht & <- & Hht).
  apply elem_of_list_In in Hht, Hcc. eapply host_nanos; [by apply Hi|exact Hcc].
Qed.

(** sorting by average always works *)
Lemma SSorted_take {A} (R : A → A → Prop) l : ∀ n, StronglySorted R l → StronglySorted R (take n l).
Proof.
  induction l as [|x l IH]; intros [|n] H; simpl; try constructor.
  - apply IH. by inversion H.
  - inversion H; subst. by apply Forall_take.
Qed.
Lemma thm_avg_sorted srt o order limit js :
  correct_sort srt → order ≡ₚ map_to_list (ia_jobs o) → int64_ia o →
  filter_jobs srt (Some o) order "avg" limit = Some js → StronglySorted (may_precede "avg") js.
Proof.
  intros Hc Ho (_ & _ & Hi) Hf. unfold filter_jobs in Hf. set (rows := map (λ kj, api_job kj.1 kj.2) order) in Hf.
  destruct (sort_jobs_spec srt rows "avg" Hc) as [_ Hs].
  assert (StronglySorted (may_precede "avg") (sort_jobs srt rows "avg")) as HS.
  { apply Hs.
    - unfold column. repeat (apply elem_of_cons; first [by left|right]).
    - intros r Hr. split; [|done]. intros _. apply elem_of_list_fmap in Hr as ([k j] & -> & Hkj). cbn.
      rewrite Ho in Hkj. apply elem_of_map_to_list in Hkj. destruct (Hi _ _ Hkj) as (_ & (H1 & H2 & _) & _).
      pose proof (thm_avg_finite j H1 H2) as Hfin. by destruct (job_avg j). }
  destruct (0 <? limit); injection Hf as <-; [by apply SSorted_take|done].
Qed.
