(** * Sums of squares *)
From Coq Require Import Reals Lra.
From Flocq Require Import Core.
From Verif Require Import Base SAgg SFloat PFloat.

#[local] Arguments bpow : simpl never.

Lemma eps_u53 : eps = u53.
Proof. unfold eps, u53. rewrite <- (bpow_powerRZ radix2). reflexivity. Qed.
Lemma frepr_fval f x : frepr f x → fval f = x.
Proof.
  intros (b & <- & Hf & <-). destruct b as [s|s| |s m e ?]; try done. simpl. unfold F2R. simpl.
  rewrite (bpow_powerRZ radix2). f_equal. destruct s; simpl cond_Zopp; [change (Z.neg m) with (- Z.pos m); rewrite opp_IZR; ring|ring].
Qed.

Lemma pow_eps_ge k : (1 <= (1 + eps) ^ k)%R.
Proof.
  apply pow_R1_Rle. pose proof (bpow_gt_0 radix2 (-53)). rewrite eps_u53. unfold u53. lra.
Qed.
Lemma eps_pos : (0 < eps)%R.
Proof. rewrite eps_u53. apply bpow_gt_0. Qed.

(** one more rounding *)
Lemma within_step k x t e : within_roundings k x t → (Rabs e <= eps)%R → within_roundings (S k) (x * (1 + e)) t.
Proof.
  unfold within_roundings. intros H He. pose proof eps_pos. pose proof (pow_eps_ge k) as Hk.
  replace (x * (1 + e) - t)%R with ((x - t) * (1 + e) + t * e)%R by ring.
  eapply Rle_trans; [apply Rabs_triang|]. rewrite !Rabs_mult.
  assert (Rabs (1 + e) <= 1 + eps)%R as H1.
  { eapply Rle_trans; [apply Rabs_triang|]. rewrite Rabs_R1. lra. }
  apply Rle_trans with (((1 + eps) ^ k - 1) * Rabs t * (1 + eps) + Rabs t * eps)%R.
  - apply Rplus_le_compat.
    + apply Rmult_le_compat; auto using Rabs_pos.
    + apply Rmult_le_compat_l; auto using Rabs_pos.
  - simpl. right. ring.
Qed.
Lemma within_refl k t : within_roundings k t t.
Proof.
  unfold within_roundings. rewrite Rminus_diag_eq by done. rewrite Rabs_R0.
  apply Rmult_le_pos; [|apply Rabs_pos]. pose proof (pow_eps_ge k). lra.
Qed.
Lemma within_mono k k' x t : (k ≤ k')%nat → within_roundings k x t → within_roundings k' x t.
Proof.
  unfold within_roundings. intros Hk H. eapply Rle_trans; [exact H|]. apply Rmult_le_compat_r; [apply Rabs_pos|].
  assert ((1 + eps) ^ k <= (1 + eps) ^ k')%R; [|lra]. apply Rle_pow; [|done]. pose proof eps_pos. lra.
Qed.
(** sums of numbers of the same sign *)
Lemma within_add k x t y t' : (0 <= t)%R → (0 <= t')%R →
  within_roundings k x t → within_roundings k y t' → within_roundings k (x + y) (t + t').
Proof.
  unfold within_roundings. intros Ht Ht' H H'. rewrite (Rabs_pos_eq t) in H by done. rewrite (Rabs_pos_eq t') in H' by done. rewrite (Rabs_pos_eq (t + t')) by lra.
  replace (x + y - (t + t'))%R with ((x - t) + (y - t'))%R by ring.
  eapply Rle_trans; [apply Rabs_triang|]. lra.
Qed.
(** products *)
Lemma within_mul k k' x t y t' :
  within_roundings k x t → within_roundings k' y t' → within_roundings (k + k') (x * y) (t * t').
Proof.
  unfold within_roundings. intros H H'. pose proof (pow_eps_ge k). pose proof (pow_eps_ge k').
  replace (x * y - t * t')%R with ((x - t) * y + t * (y - t'))%R by ring.
  eapply Rle_trans; [apply Rabs_triang|]. rewrite !Rabs_mult, pow_add.
  assert (Rabs y <= (1 + eps) ^ k' * Rabs t')%R as Hy.
  { replace y with ((y - t') + t')%R by ring. eapply Rle_trans; [apply Rabs_triang|]. lra. }
  apply Rle_trans with (((1 + eps) ^ k - 1) * Rabs t * ((1 + eps) ^ k' * Rabs t') + Rabs t * (((1 + eps) ^ k' - 1) * Rabs t'))%R.
  - apply Rplus_le_compat; [apply Rmult_le_compat|apply Rmult_le_compat_l]; auto using Rabs_pos.
  - right. ring.
Qed.
(** rounding *)
Lemma within_rnd k x t : (x = 0 ∨ bpow radix2 (-1022) <= Rabs x)%R → within_roundings k x t → within_roundings (S k) (rnd x) t.
Proof.
  intros [->|Hx] H.
  - rewrite rnd_0. apply (within_mono k); [lia|done].
  - destruct (rnd_rel x Hx) as (e & He & ->). apply within_step; [done|]. by rewrite eps_u53.
Qed.

(** ** Integers *)
Lemma IZR_abs_le n k : 0 ≤ k → Z.abs n ≤ 2 ^ k → (Rabs (IZR n) <= bpow radix2 k)%R.
Proof.
  intros Hk H. rewrite <- abs_IZR. rewrite <- IZR_Zpower by done. by apply IZR_le.
Qed.
Lemma frepr_int64 n : in_int64 n → frepr (fofZ n) (rnd (IZR n)) ∧ (Rabs (rnd (IZR n)) <= bpow radix2 63)%R.
Proof.
  intros H. assert (Rabs (IZR n) <= bpow radix2 63)%R as Hb by (apply IZR_abs_le; unfold in_int64 in H; lia).
  split; [|by apply rnd_abs_le]. apply frepr_ofZ. by apply (rnd_fits _ 63).
Qed.
Lemma frepr_small n : Z.abs n ≤ 2 ^ 53 → frepr (fofZ n) (IZR n).
Proof.
  intros H. rewrite <- (rnd_int n) by done. apply frepr_ofZ. apply (rnd_fits _ 53); [done|]. apply IZR_abs_le; lia.
Qed.
Lemma rnd_int_big n : n ≠ 0 → (1 <= Rabs (rnd (IZR n)))%R.
Proof.
  intros H. change 1%R with (bpow radix2 0). apply abs_round_ge_generic; [apply _|apply _|by apply fexp64_bpow|].
  change (bpow radix2 0) with 1%R. rewrite <- abs_IZR. apply IZR_le. lia.
Qed.
Lemma bpow_small : (bpow radix2 (-1022) <= 1)%R.
Proof. change 1%R with (bpow radix2 0). by apply bpow_le. Qed.
Lemma rnd_ge_1 x : (1 <= x)%R → (1 <= rnd x)%R.
Proof. intros H. apply rnd_le in H. change 1%R with (bpow radix2 0) in H at 1. by rewrite rnd_bpow in H. Qed.

(** the square of an int64 *)
Lemma frepr_square n : in_int64 n →
  ∃ q, frepr (fmul (fofZ n) (fofZ n)) q ∧ (q = 0 ∨ 1 <= q)%R ∧ (q <= bpow radix2 126)%R ∧ within_roundings 3 q (IZR (n * n)).
Proof.
  intros H. destruct (frepr_int64 n H) as [Hr Hb]. set (x := rnd (IZR n)) in *.
  assert (0 <= x * x)%R as Hpos by apply Rle_0_sqr.
  assert (Rabs (x * x) <= bpow radix2 126)%R as Hb2.
  { change 126 with (63 + 63). rewrite bpow_plus, Rabs_mult. apply Rmult_le_compat; auto using Rabs_pos. }
  exists (rnd (x * x)). split; [|split; [|split]].
  - apply frepr_mul; [done|done|]. by apply (rnd_fits _ 126).
  - destruct (decide (n = 0)) as [->|Hn].
    + left. subst x. rewrite rnd_0. rewrite Rmult_0_l. apply rnd_0.
    + right. apply rnd_ge_1. pose proof (rnd_int_big n Hn) as H1. fold x in H1.
      rewrite <- (Rabs_pos_eq (x * x)) by done. rewrite Rabs_mult. nra.
  - rewrite <- (Rabs_pos_eq (rnd _)) by (by apply rnd_pos). by apply rnd_abs_le.
  - rewrite mult_IZR. apply within_rnd.
    + destruct (decide (n = 0)) as [->|Hn]; [left; subst x; rewrite rnd_0; ring|right].
      pose proof (rnd_int_big n Hn) as H1. fold x in H1. pose proof bpow_small. rewrite Rabs_mult. nra.
    + assert (within_roundings 1 x (IZR n)) as Hx.
      { apply within_rnd; [|apply within_refl]. destruct (decide (n = 0)) as [->|Hn]; [by left|right].
        eapply Rle_trans; [apply bpow_small|]. rewrite <- abs_IZR. apply IZR_le. lia. }
      exact (within_mul 1 1 _ _ _ _ Hx Hx).
Qed.

(** ** Saturation: small numbers stop adding up *)
Lemma rnd_sat : rnd (bpow radix2 180 + bpow radix2 126) = bpow radix2 180.
Proof.
  assert (∀ k, 0 ≤ k < 1000 → frepr (fofZ (2 ^ k)) (bpow radix2 k)) as Hk.
  { intros k Hk. replace (bpow radix2 k) with (rnd (IZR (2 ^ k))).
    - apply frepr_ofZ. apply (rnd_fits _ k); [lia|]. apply IZR_abs_le; [lia|]. rewrite Z.abs_eq; [done|]. by apply Z.pow_nonneg.
    - change (2 ^ k) with (radix_val radix2 ^ k). rewrite IZR_Zpower by lia. apply rnd_bpow. lia. }
  assert (frepr (fadd (fofZ (2 ^ 180)) (fofZ (2 ^ 126))) (rnd (bpow radix2 180 + bpow radix2 126))) as H.
  { apply frepr_add; [by apply Hk|by apply Hk|]. apply (rnd_fits _ 181); [done|].
    rewrite Rabs_pos_eq; [|apply Rplus_le_le_0_compat; apply bpow_ge_0].
    change 181 with (180 + 1). rewrite bpow_plus.
    assert (bpow radix2 126 <= bpow radix2 180)%R by (by apply bpow_le). change (bpow radix2 1) with 2%R. lra. }
  assert (fadd (fofZ (2 ^ 180)) (fofZ (2 ^ 126)) = fofZ (2 ^ 180)) as He by (vm_compute; reflexivity).
  rewrite He in H. eapply frepr_fun; [exact H|]. by apply Hk.
Qed.
Lemma sat_add f g x y : frepr f x → frepr g y → (Rabs x <= bpow radix2 180)%R → (Rabs y <= bpow radix2 126)%R →
  frepr (fadd f g) (rnd (x + y)) ∧ (Rabs (rnd (x + y)) <= bpow radix2 180)%R.
Proof.
  intros Hf Hg Hx Hy.
  assert (Rabs (rnd (x + y)) <= bpow radix2 180)%R as Hb.
  { apply Rabs_le. apply Rabs_le_inv in Hx. apply Rabs_le_inv in Hy. split.
    - apply Rle_trans with (rnd (- (bpow radix2 180 + bpow radix2 126))).
      + right. unfold rnd. rewrite round_NE_opp. f_equal. symmetry. apply rnd_sat.
      + apply rnd_le. lra.
    - rewrite <- rnd_sat. apply rnd_le. lra. }
  split; [|done]. apply frepr_add; [done|done|]. eapply Rle_lt_trans; [exact Hb|]. by apply bpow_lt.
Qed.

(** ** The sum *)
Definition ss_from (a : f64) (l : list Z) : f64 := fold_left (λ acc n, fadd acc (fmul (fofZ n) (fofZ n))) l a.

Lemma zsumsq_nonneg l : 0 ≤ zsumsq l.
Proof. induction l; simpl; nia. Qed.

Lemma ss_exact_from l : ∀ a s, frepr a (IZR s) → 0 ≤ s → s + zsumsq l ≤ 2 ^ 53 → frepr (ss_from a l) (IZR (s + zsumsq l)).
Proof.
  induction l as [|n l IH]; simpl; intros a s Ha Hs Hb.
  - by rewrite Z.add_0_r.
  - pose proof (zsumsq_nonneg l). replace (s + (n * n + zsumsq l)) with ((s + n * n) + zsumsq l) in * by ring.
    assert (Z.abs n ≤ 2 ^ 53) by nia.
    apply IH; [|nia|done].
    assert (frepr (fmul (fofZ n) (fofZ n)) (IZR (n * n))) as Hq.
    { rewrite <- (rnd_int (n * n)) by nia. rewrite mult_IZR. apply frepr_mul; [by apply frepr_small|by apply frepr_small|].
      rewrite <- mult_IZR. apply (rnd_fits _ 53); [done|]. apply IZR_abs_le; nia. }
    rewrite <- (rnd_int (s + n * n)) by nia. rewrite plus_IZR. apply frepr_add; [done|done|].
    rewrite <- plus_IZR. apply (rnd_fits _ 53); [done|]. apply IZR_abs_le; nia.
Qed.
Lemma ss_zero l : zsumsq l = 0 → sum_squares l = f0.
Proof.
  change (sum_squares l) with (ss_from f0 l). induction l as [|n l IH]; [done|]. simpl. pose proof (zsumsq_nonneg l). intros Hz.
  assert (n = 0) as -> by nia. unfold ss_from. simpl. change (ss_from f0 l = f0). apply IH. lia.
Qed.
Lemma thm_ss_exact l : zsumsq l ≤ 2 ^ 53 → sum_squares l = fofZ (zsumsq l) ∧ fval (sum_squares l) = IZR (zsumsq l).
Proof.
  intros H. pose proof (ss_exact_from l f0 0 frepr_f0 ltac:(done) H) as Hr. rewrite Z.add_0_l in Hr. change (ss_from f0 l) with (sum_squares l) in Hr.
  split; [|by apply frepr_fval]. destruct (decide (zsumsq l = 0)) as [He|He].
  - rewrite He. by apply ss_zero.
  - eapply frepr_inj; [exact Hr| |].
    + apply frepr_small. pose proof (zsumsq_nonneg l). lia.
    + by apply IZR_neq.
Qed.

(** the general invariant *)
Lemma ss_inv l : Forall in_int64 l → ∀ a x s k, frepr a x → (x = 0 ∨ 1 <= x)%R → (x <= bpow radix2 180)%R → (3 ≤ k)%nat →
  0 ≤ s → within_roundings k x (IZR s) →
  ∃ y, frepr (ss_from a l) y ∧ (y = 0 ∨ 1 <= y)%R ∧ (y <= bpow radix2 180)%R ∧ within_roundings (k + length l) y (IZR (s + zsumsq l)).
Proof.
  induction 1 as [|n l Hn Hl IH]; simpl; intros a x s k Ha Hx Hx' Hk Hs Hw.
  - exists x. by rewrite Z.add_0_r, Nat.add_0_r.
  - destruct (frepr_square n Hn) as (q & Hq & Hq1 & Hq2 & Hq3).
    assert (0 <= x)%R by (destruct Hx; lra). assert (0 <= q)%R by (destruct Hq1; lra).
    destruct (sat_add a _ x q Ha Hq) as [Hr Hb]; [by rewrite Rabs_pos_eq by done|by rewrite Rabs_pos_eq by done|].
    assert (0 <= rnd (x + q))%R by (apply rnd_pos; lra).
    assert (rnd (x + q) = 0 ∨ 1 <= rnd (x + q))%R as Hz.
    { clear Hx' Hb H1. destruct Hx as [Hx|Hx]; [subst x|].
      - rewrite Rplus_0_l. rewrite (frepr_rnd _ _ Hq). done.
      - right. apply rnd_ge_1. lra. }
    destruct (IH (fadd a (fmul (fofZ n) (fofZ n))) (rnd (x + q)) (s + n * n) (S k)) as (y & Hy & Hy1 & Hy2 & Hy3); [done|done| |lia|nia| |].
    + by rewrite Rabs_pos_eq in Hb by done.
    + rewrite plus_IZR. apply within_rnd.
      * destruct Hx as [->|Hx]; [destruct Hq1 as [->|Hq1]; [left; ring|]|]; right; pose proof bpow_small; rewrite Rabs_pos_eq by lra; lra.
      * apply within_add; [by apply IZR_le|apply IZR_le; nia|done|]. by apply (within_mono 3).
    + exists y. split; [exact Hy|]. split; [done|]. split; [done|].
      replace (s + (n * n + zsumsq l)) with (s + n * n + zsumsq l) by ring.
      replace (k + S (length l))%nat with (S k + length l)%nat by lia. done.
Qed.
Lemma ss_all l : Forall in_int64 l →
  ∃ y, frepr (sum_squares l) y ∧ (y = 0 ∨ 1 <= y)%R ∧ (y <= bpow radix2 180)%R ∧ within_roundings (3 + length l) y (IZR (zsumsq l)).
Proof.
  intros H. destruct (ss_inv l H f0 0 0 3) as (y & Hy & Hp & Hb & Hw);
    [apply frepr_f0|by left|apply bpow_ge_0|lia|done|apply within_refl|].
  exists y. done.
Qed.

Lemma thm_ss_finite l : Forall in_int64 l →
  ffinite (sum_squares l) = true ∧ fltb (sum_squares l) f0 = false ∧ (0 <= fval (sum_squares l) <= powerRZ 2 180)%R.
Proof.
  intros H. destruct (ss_all l H) as (y & Hy & Hp & Hb & _). assert (0 <= y)%R by (destruct Hp; lra).
  split; [by eapply frepr_finite|]. split.
  - rewrite (frepr_ltb _ _ _ _ Hy frepr_f0). by apply Rlt_bool_false.
  - rewrite (frepr_fval _ _ Hy). rewrite (bpow_powerRZ radix2) in Hb. done.
Qed.
Lemma thm_ss_error l : Forall in_int64 l → within_roundings (3 + length l) (fval (sum_squares l)) (IZR (zsumsq l)).
Proof. intros H. destruct (ss_all l H) as (y & Hy & _ & _ & Hw). by rewrite (frepr_fval _ _ Hy). Qed.
