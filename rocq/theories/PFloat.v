(** * The doubles of [Base] and the real numbers

    [frepr f x]: the double [f] is finite and its value is the real number
    [x].  Every operation of [Base] on finite doubles gives the exact result
    rounded to nearest even ([rnd]), unless that overflows.  Flocq's
    formalisation of IEEE-754 does the work. *)
From Coq Require Import Reals Lra.
From Flocq Require Import Core Round BinarySingleNaN Relative.
From Verif Require Import Base.

#[global] Instance prec_gt_0_64 : Prec_gt_0 53 := eq_refl.
#[global] Instance prec_lt_emax_64 : Prec_lt_emax 53 1024 := eq_refl.
Notation b64 := (binary_float 53 1024).
Notation emin64 := (-1074).
Notation fexp64 := (FLT_exp emin64 53).
Definition rnd (x : R) : R := round radix2 fexp64 ZnearestE x.
Definition frepr (f : f64) (x : R) : Prop := ∃ b : b64, B2SF b = f ∧ is_finite b = true ∧ B2R b = x.

(** ** The operations of SpecFloat are Flocq's *)
Lemma round_nearest_even_equiv s m l : round_nearest_even m l = choice_mode mode_NE s m l.
Proof. destruct l as [|c]; [done|]. destruct c; try done. simpl. unfold cond_incr. by destruct (Z.even m). Qed.
Lemma binary_round_aux_equiv sx mx ex lx :
  SpecFloat.binary_round_aux 53 1024 sx mx ex lx = BinarySingleNaN.binary_round_aux 53 1024 mode_NE sx mx ex lx.
Proof.
  unfold SpecFloat.binary_round_aux, BinarySingleNaN.binary_round_aux. set (mrse' := shr_fexp _ _ _ _ _). destruct mrse' as [mrs' e']. simpl.
  by rewrite (round_nearest_even_equiv sx).
Qed.
Lemma binary_round_equiv s m e : SpecFloat.binary_round 53 1024 s m e = BinarySingleNaN.binary_round 53 1024 mode_NE s m e.
Proof.
  unfold SpecFloat.binary_round, BinarySingleNaN.binary_round, shl_align_fexp. set (mez := shl_align _ _ _). destruct mez as [mz ez].
  apply binary_round_aux_equiv.
Qed.
Lemma binary_normalize_equiv m e szero :
  SpecFloat.binary_normalize 53 1024 m e szero = B2SF (BinarySingleNaN.binary_normalize 53 1024 _ _ mode_NE m e szero).
Proof.
  destruct m as [|p|p]; [done| |]; simpl; rewrite B2SF_SF2B; apply binary_round_equiv.
Qed.
Lemma add_equiv (x y : b64) : fadd (B2SF x) (B2SF y) = B2SF (Bplus mode_NE x y).
Proof.
  destruct x as [sx|sx| |sx mx ex Bx], y as [sy|sy| |sy my ey By];
    try (unfold fadd; simpl; by (trivial || destruct (Bool.eqb _ _))).
  apply binary_normalize_equiv.
Qed.
Lemma sub_equiv (x y : b64) : fsub (B2SF x) (B2SF y) = B2SF (Bminus mode_NE x y).
Proof.
  destruct x as [sx|sx| |sx mx ex Bx], y as [sy|sy| |sy my ey By];
    try (unfold fsub; simpl; by (trivial || destruct (Bool.eqb _ _))).
  unfold fsub. simpl. unfold Zminus. rewrite <- cond_Zopp_negb. apply binary_normalize_equiv.
Qed.
Lemma mul_equiv (x y : b64) : fmul (B2SF x) (B2SF y) = B2SF (Bmult mode_NE x y).
Proof.
  destruct x as [sx|sx| |sx mx ex Bx], y as [sy|sy| |sy my ey By]; try done.
  unfold fmul. simpl. rewrite B2SF_SF2B. apply binary_round_aux_equiv.
Qed.
Lemma div_equiv (x y : b64) : fdiv (B2SF x) (B2SF y) = B2SF (Bdiv mode_NE x y).
Proof.
  destruct x as [sx|sx| |sx mx ex Bx], y as [sy|sy| |sy my ey By];
    try (unfold fdiv; simpl; by (trivial || destruct (Bool.eqb _ _))).
  unfold fdiv. simpl. rewrite B2SF_SF2B. set (melz := SFdiv_core_binary _ _ _ _ _ _). destruct melz as [[mz ez] lz].
  apply binary_round_aux_equiv.
Qed.
Lemma sqrt_equiv (x : b64) : fsqrt (B2SF x) = B2SF (Bsqrt mode_NE x).
Proof.
  destruct x as [sx|sx| |sx mx ex Bx]; try (by (trivial || destruct sx)).
  destruct sx; [done|]. unfold fsqrt. simpl. rewrite B2SF_SF2B. set (melz := SFsqrt_core_binary _ _ _ _). destruct melz as [[mz ez] lz].
  apply binary_round_aux_equiv.
Qed.

(** ** Each operation on values *)
Lemma rnd_is x : round radix2 (SpecFloat.fexp 53 1024) (round_mode mode_NE) x = rnd x.
Proof. reflexivity. Qed.
Notation p1024 := (bpow radix2 1024).

Lemma frepr_finite f x : frepr f x → ffinite f = true.
Proof. intros (b & <- & Hf & _). by destruct b. Qed.
Lemma frepr_fun f x y : frepr f x → frepr f y → x = y.
Proof. intros (b & <- & _ & <-) (b' & Hb & _ & <-). apply B2SF_inj in Hb. by subst. Qed.
Lemma frepr_inj f g x : frepr f x → frepr g x → x ≠ 0%R → f = g.
Proof.
  intros (b & <- & Hf & <-) (b' & <- & Hf' & He) H. f_equal. apply B2R_inj; [| |done].
  - by destruct b.
  - rewrite <- He in H. by destruct b'.
Qed.
Lemma frepr_f0 : frepr f0 0.
Proof. by exists (B754_zero false). Qed.
Lemma rnd_0 : rnd 0 = 0%R.
Proof. apply round_0. apply _. Qed.
Lemma frepr_format f x : frepr f x → generic_format radix2 fexp64 x.
Proof. intros (b & <- & Hf & <-). apply generic_format_B2R. Qed.
Lemma frepr_rnd f x : frepr f x → rnd x = x.
Proof. intros H. apply round_generic; [apply _|]. exact (frepr_format f x H). Qed.

Lemma Rlt_bool_lt x y : (x < y)%R → Rlt_bool x y = true.
Proof. intros. by apply Rlt_bool_true. Qed.

Lemma frepr_ofZ n : (Rabs (rnd (IZR n)) < p1024)%R → frepr (fofZ n) (rnd (IZR n)).
Proof.
  intros H. unfold fofZ. rewrite binary_normalize_equiv.
  pose proof (binary_normalize_correct 53 1024 _ _ mode_NE n 0 false) as Hc. cbv zeta in Hc.
  rewrite !rnd_is in Hc. replace (F2R (Float radix2 n 0)) with (IZR n) in Hc by (unfold F2R; simpl; ring).
  rewrite (Rlt_bool_lt _ _ H) in Hc. destruct Hc as (Hv & Hf & _). eexists. split; [reflexivity|]. by split.
Qed.
Lemma frepr_add f g x y : frepr f x → frepr g y → (Rabs (rnd (x + y)) < p1024)%R → frepr (fadd f g) (rnd (x + y)).
Proof.
  intros (b & <- & Hf & <-) (b' & <- & Hf' & <-) H. rewrite add_equiv.
  pose proof (Bplus_correct 53 1024 _ _ mode_NE b b' Hf Hf') as Hc. rewrite !rnd_is in Hc.
  rewrite (Rlt_bool_lt _ _ H) in Hc. destruct Hc as (Hv & Hfin & _). eexists. split; [reflexivity|]. by split.
Qed.
Lemma frepr_sub f g x y : frepr f x → frepr g y → (Rabs (rnd (x - y)) < p1024)%R → frepr (fsub f g) (rnd (x - y)).
Proof.
  intros (b & <- & Hf & <-) (b' & <- & Hf' & <-) H. rewrite sub_equiv.
  pose proof (Bminus_correct 53 1024 _ _ mode_NE b b' Hf Hf') as Hc. rewrite !rnd_is in Hc.
  rewrite (Rlt_bool_lt _ _ H) in Hc. destruct Hc as (Hv & Hfin & _). eexists. split; [reflexivity|]. by split.
Qed.
Lemma frepr_mul f g x y : frepr f x → frepr g y → (Rabs (rnd (x * y)) < p1024)%R → frepr (fmul f g) (rnd (x * y)).
Proof.
  intros (b & <- & Hf & <-) (b' & <- & Hf' & <-) H. rewrite mul_equiv.
  pose proof (Bmult_correct 53 1024 _ _ mode_NE b b') as Hc. rewrite !rnd_is in Hc.
  rewrite (Rlt_bool_lt _ _ H) in Hc. destruct Hc as (Hv & Hfin & _). eexists. split; [reflexivity|].
  split; [by rewrite Hfin, Hf, Hf'|done].
Qed.
Lemma frepr_div f g x y : frepr f x → frepr g y → y ≠ 0%R → (Rabs (rnd (x / y)) < p1024)%R → frepr (fdiv f g) (rnd (x / y)).
Proof.
  intros (b & <- & Hf & <-) (b' & <- & Hf' & <-) H0 H. rewrite div_equiv.
  pose proof (Bdiv_correct 53 1024 _ _ mode_NE b b' H0) as Hc. rewrite !rnd_is in Hc.
  rewrite (Rlt_bool_lt _ _ H) in Hc. destruct Hc as (Hv & Hfin & _). eexists. split; [reflexivity|].
  split; [by rewrite Hfin|done].
Qed.
Lemma frepr_sqrt f x : frepr f x → (0 <= x)%R → frepr (fsqrt f) (rnd (R_sqrt.sqrt x)).
Proof.
  intros (b & <- & Hf & <-) H. rewrite sqrt_equiv.
  destruct (Bsqrt_correct 53 1024 _ _ mode_NE b) as (Hv & Hfin & _). rewrite !rnd_is in Hv.
  eexists. split; [reflexivity|]. split; [|done].
  rewrite Hfin. destruct b as [s|s| |s m e ?]; try done. destruct s; [|done]. exfalso. apply Rle_not_lt in H. apply H.
  apply F2R_lt_0. done.
Qed.
Lemma frepr_ltb f g x y : frepr f x → frepr g y → fltb f g = Rlt_bool x y.
Proof.
  intros (b & <- & Hf & <-) (b' & <- & Hf' & <-). change (fltb (B2SF b) (B2SF b')) with (Bltb b b'). by apply Bltb_correct.
Qed.
Lemma frepr_eqb f g x y : frepr f x → frepr g y → feqb f g = Req_bool x y.
Proof.
  intros (b & <- & Hf & <-) (b' & <- & Hf' & <-). change (feqb (B2SF b) (B2SF b')) with (Beqb b b'). by apply Beqb_correct.
Qed.

(** ** Rounding *)
Lemma rnd_le x y : (x <= y)%R → (rnd x <= rnd y)%R.
Proof. apply round_le; apply _. Qed.
Lemma fexp64_bpow e : emin64 ≤ e → generic_format radix2 fexp64 (bpow radix2 e).
Proof.
  intros. apply generic_format_bpow. unfold FLT_exp. lia.
Qed.
Lemma rnd_bpow e : emin64 ≤ e → rnd (bpow radix2 e) = bpow radix2 e.
Proof. intros. apply round_generic; [apply _|]. by apply fexp64_bpow. Qed.
Lemma rnd_abs_le x e : emin64 ≤ e → (Rabs x <= bpow radix2 e)%R → (Rabs (rnd x) <= bpow radix2 e)%R.
Proof. intros. apply abs_round_le_generic; [apply _|apply _|by apply fexp64_bpow|done]. Qed.
Lemma rnd_fits x e : emin64 ≤ e < 1024 → (Rabs x <= bpow radix2 e)%R → (Rabs (rnd x) < p1024)%R.
Proof. intros [Hl Hu] H. eapply Rle_lt_trans; [by apply (rnd_abs_le x e)|]. by apply bpow_lt. Qed.
Lemma rnd_pos x : (0 <= x)%R → (0 <= rnd x)%R.
Proof. intros H. rewrite <- rnd_0. by apply rnd_le. Qed.
(** an integer of at most 53 bits *)
Lemma rnd_int n : Z.abs n ≤ 2 ^ 53 → rnd (IZR n) = IZR n.
Proof.
  intros H. apply round_generic; [apply _|]. destruct (decide (Z.abs n = 2 ^ 53)) as [He|].
  - assert (n = 2 ^ 53 ∨ n = - 2 ^ 53) as [->| ->] by lia.
    + change (2 ^ 53) with (radix_val radix2 ^ 53). rewrite IZR_Zpower by done. by apply fexp64_bpow.
    + rewrite opp_IZR. apply generic_format_opp. change (2 ^ 53) with (radix_val radix2 ^ 53). rewrite IZR_Zpower by done.
      by apply fexp64_bpow.
  - apply generic_format_FLT. exists (Float radix2 n 0); [unfold F2R; simpl; ring| simpl; lia | simpl; lia].
Qed.
(** relative error, away from the subnormal numbers *)
Definition u53 : R := bpow radix2 (-53).
Lemma rnd_rel x : (bpow radix2 (-1022) <= Rabs x)%R → ∃ e, (Rabs e <= u53)%R ∧ rnd x = (x * (1 + e))%R.
Proof.
  intros H. destruct (relative_error_N_FLT_ex radix2 emin64 53 eq_refl (λ z, negb (Z.even z)) x) as (e & He & Hr); [exact H|].
  exists e. split; [|exact Hr]. eapply Rle_trans; [exact He|]. unfold u53. change (-53) with (-1 + (-53 + 1)). rewrite bpow_plus.
  simpl. lra.
Qed.
