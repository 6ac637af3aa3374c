(** * Proofs: Librato summaries of measurements of ordinary size are finite (C84) *)
From Coq Require Import Reals Lra.
From Flocq Require Import Core.
From Verif Require Import SFloat3 PLibrato PLibrato2 SFloat PFloat PFloat2.

#[local] Arguments bpow : simpl never.

Definition bounded (x : f64) : Prop := ∃ r, frepr x r ∧ (Rabs r <= bpow radix2 333)%R.

Lemma bounded_finite x : bounded x → finite x.
Proof. intros (r & Hr & _). apply frepr_finite in Hr. destruct x; try done; by split. Qed.
Lemma IZR_bpow n k : 0 ≤ k → Z.abs n ≤ 2 ^ k → (Rabs (IZR n) <= bpow radix2 k)%R.
Proof. apply IZR_abs_le. Qed.
Lemma bounded_ms n : in_int64 n → bounded (fdiv (fofZ n) (fofZ 1000000)).
Proof.
  intros Hn. destruct (frepr_int64 n Hn) as [H1 H2]. exists (rnd (rnd (IZR n) / 1000000)).
  assert (Rabs (rnd (IZR n) / 1000000) <= bpow radix2 63)%R as Hb.
  { unfold Rdiv. rewrite Rabs_mult. rewrite (Rabs_pos_eq (/ 1000000)) by lra. pose proof (Rabs_pos (rnd (IZR n))). lra. }
  split.
  - apply frepr_div; [done|by apply frepr_small|lra|]. by apply (rnd_fits _ 63).
  - apply Rle_trans with (bpow radix2 63); [by apply rnd_abs_le|by apply bpow_le].
Qed.
Lemma bounded_gauge v : valid_binary 53 1024 v = true → ffinite v = true → (Rabs (fval v) <= IZR (10 ^ 100))%R → bounded v.
Proof.
  intros Hv Hf Hb. exists (fval v). split.
  - set (b := BinarySingleNaN.SF2B v Hv). assert (BinarySingleNaN.B2SF b = v) as Hbv by apply BinarySingleNaN.B2SF_SF2B.
    assert (frepr v (BinarySingleNaN.B2R b)) as H.
    { exists b. split; [done|]. split; [|done]. rewrite <- BinarySingleNaN.is_finite_SF_B2SF, Hbv. by destruct v. }
    by rewrite (frepr_fval _ _ H).
  - eapply Rle_trans; [exact Hb|]. rewrite <- (Rabs_pos_eq (IZR (10 ^ 100))) by (apply IZR_le; by apply Z.pow_nonneg).
    apply IZR_abs_le; [lia|]. by vm_compute.
Qed.

Lemma frepr_pow k : 0 ≤ k < 1000 → frepr (fofZ (2 ^ k)) (bpow radix2 k).
Proof.
  intros Hk. replace (bpow radix2 k) with (rnd (IZR (2 ^ k))).
  - apply frepr_ofZ. apply (rnd_fits _ k); [lia|]. apply IZR_abs_le; [lia|]. rewrite Z.abs_eq; [done|]. by apply Z.pow_nonneg.
  - change (2 ^ k) with (radix_val radix2 ^ k). rewrite IZR_Zpower by lia. apply rnd_bpow. lia.
Qed.
Lemma sat_gen a b : 0 ≤ b ≤ a → a < 900 → fadd (fofZ (2 ^ a)) (fofZ (2 ^ b)) = fofZ (2 ^ a) →
  ∀ f g x y, frepr f x → frepr g y → (Rabs x <= bpow radix2 a)%R → (Rabs y <= bpow radix2 b)%R →
  frepr (fadd f g) (rnd (x + y)) ∧ (Rabs (rnd (x + y)) <= bpow radix2 a)%R.
Proof.
  intros Hab Ha He f g x y Hf Hg Hx Hy.
  assert (rnd (bpow radix2 a + bpow radix2 b) = bpow radix2 a) as Hsat.
  { assert (frepr (fadd (fofZ (2 ^ a)) (fofZ (2 ^ b))) (rnd (bpow radix2 a + bpow radix2 b))) as H.
    { apply frepr_add; [apply frepr_pow; lia|apply frepr_pow; lia|]. apply (rnd_fits _ (a + 1)); [lia|].
      rewrite Rabs_pos_eq; [|apply Rplus_le_le_0_compat; apply bpow_ge_0]. rewrite bpow_plus.
      assert (bpow radix2 b <= bpow radix2 a)%R by (apply bpow_le; lia). change (bpow radix2 1) with 2%R. lra. }
    rewrite He in H. eapply frepr_fun; [exact H|]. apply frepr_pow. lia. }
  assert (Rabs (rnd (x + y)) <= bpow radix2 a)%R as Hb.
  { apply Rabs_le. apply Rabs_le_inv in Hx. apply Rabs_le_inv in Hy. split.
    - apply Rle_trans with (rnd (- (bpow radix2 a + bpow radix2 b))).
      + right. unfold rnd. rewrite round_NE_opp. f_equal. symmetry. apply Hsat.
      + apply rnd_le. lra.
    - rewrite <- Hsat. apply rnd_le. lra. }
  split; [|done]. apply frepr_add; [done|done|]. eapply Rle_lt_trans; [exact Hb|]. apply bpow_lt. lia.
Qed.
Lemma sum_finite a b : 0 ≤ b ≤ a → a < 900 → fadd (fofZ (2 ^ a)) (fofZ (2 ^ b)) = fofZ (2 ^ a) → ∀ l x,
  (∃ r, frepr x r ∧ (Rabs r <= bpow radix2 a)%R) → Forall (λ y, ∃ r, frepr y r ∧ (Rabs r <= bpow radix2 b)%R) l →
  finite (fold_left fadd l x).
Proof.
  intros Hab Ha He l. induction l as [|y l IH]; intros x (r & Hr & Hb) Hl.
  - simpl. apply frepr_finite in Hr. destruct x; try done; by split.
  - simpl. inversion Hl as [|? ? (s & Hs & Hsb) Hl']; subst. apply IH; [|done].
    destruct (sat_gen a b Hab Ha He x y r s Hr Hs Hb Hsb) as [H1 H2]. eauto.
Qed.
Lemma square_bounded x : bounded x → ∃ r, frepr (SLibrato.square x) r ∧ (Rabs r <= bpow radix2 666)%R.
Proof.
  intros (r & Hr & Hb). assert (Rabs (r * r) <= bpow radix2 666)%R as H2.
  { rewrite Rabs_mult. change 666 with (333 + 333). rewrite bpow_plus. apply Rmult_le_compat; auto using Rabs_pos. }
  exists (rnd (r * r)). split; [|by apply rnd_abs_le]. apply frepr_mul; [done|done|]. by apply (rnd_fits _ 666).
Qed.
Lemma summary_finite l g : Forall bounded l → summarises l g → finite (lg_sum g) ∧ finite (lg_min g) ∧ finite (lg_max g) ∧ finite (lg_ss g).
Proof.
  intros Hl (x & l' & -> & _ & Hs & Hss & [Hm _] & [HM _]). inversion Hl as [|? ? Hx Hl']; subst.
  rewrite Forall_forall in Hl.
  split; [|split; [apply bounded_finite, Hl; done|split; [apply bounded_finite, Hl; done|]]].
  - rewrite Hs. apply (sum_finite 387 333); [lia|lia|vm_compute; reflexivity| |exact Hl'].
    destruct Hx as (r & Hr & Hb). exists r. split; [done|]. eapply Rle_trans; [exact Hb|]. by apply bpow_le.
  - rewrite Hss. apply (sum_finite 720 666); [lia|lia|vm_compute; reflexivity| |].
    + destruct (square_bounded x Hx) as (r & Hr & Hb). exists r. split; [done|]. eapply Rle_trans; [exact Hb|]. by apply bpow_le.
    + apply Forall_map. eapply Forall_impl; [exact Hl'|]. apply square_bounded.
Qed.

Lemma since_flush_in tr : ∀ acc job e, (job, e) ∈ since_flush acc tr → (job, e) ∈ acc ∨ LCmd job e ∈ tr.
Proof.
  induction tr as [|[j' e'|n ok] tr IH]; intros acc job e H; cbn [since_flush] in H; [by left| |].
  - apply IH in H as [H|H]; [|right; by right]. apply elem_of_app in H as [H|H]; [by left|].
    apply elem_of_list_singleton in H as [= -> ->]. right. by left.
  - apply IH in H as [H|H]; [by apply elem_of_nil in H|]. right. by right.
Qed.
Lemma measured_bounded c job e k v : modest e → (k, v) ∈ measured c job e → bounded v.
Proof.
  intros Hm Hv. destruct e as [ev|ev er|ev n|ev x|st n]; cbn [measured modest] in *.
  - by apply elem_of_nil in Hv.
  - by apply elem_of_nil in Hv.
  - rewrite !elem_of_cons in Hv. destruct Hv as [[= _ ->]|[[= _ ->]|Hv]]; [by apply bounded_ms|by apply bounded_ms|by apply elem_of_nil in Hv].
  - destruct Hm as (H1 & H2 & H3). rewrite !elem_of_cons in Hv. destruct Hv as [[= _ ->]|[[= _ ->]|Hv]]; [by apply bounded_gauge|by apply bounded_gauge|by apply elem_of_nil in Hv].
  - rewrite elem_of_cons in Hv. destruct Hv as [[= _ ->]|Hv]; [by apply bounded_ms|by apply elem_of_nil in Hv].
Qed.
Lemma thm_sent_modest c tr now ok :
  since_flush [] tr ≠ [] → (∀ job e, LCmd job e ∈ tr → modest e) →
  ∃ b, posts c (tr ++ [LFlush now ok]) = posts c tr ++ [(LPost now (Z.quot (c_period c) 1000000000) (c_source c) b, ok)].
Proof.
  intros Hn Hm. apply thm_sent; [done|]. intros k g Hs. eapply summary_finite; [|exact Hs].
  apply Forall_forall. intros v Hv. unfold samples in Hv. apply elem_of_list_fmap in Hv as ([k' v'] & -> & Hv).
  apply elem_of_list_filter in Hv as [_ Hv]. apply elem_of_list_In, in_concat in Hv as (L & HL & Hv).
  apply in_map_iff in HL as ([job e] & <- & Hin). apply elem_of_list_In in Hin, Hv.
  apply since_flush_in in Hin as [Hin|Hin]; [by apply elem_of_nil in Hin|]. eapply measured_bounded; [by eapply Hm|exact Hv].
Qed.
