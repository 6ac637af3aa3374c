(** * Proofs: reading decimal numbers as float64s, and shortest texts *)
From Coq Require Import Reals Lra.
From Flocq Require Import Core Ulp.
From Verif Require Import SJson PJson MNum SStatsd3 SFloat PFloat PFloat2 PStatsd PWriter PStatsd3 PNum.

#[local] Arguments bpow : simpl never.

(** ** reading rounds to nearest even *)
Lemma bpow_pow k : 0 ≤ k → bpow radix2 k = IZR (2 ^ k).
Proof. intros H. change 2 with (radix_val radix2). by rewrite IZR_Zpower. Qed.
Lemma bpow_inv k : bpow radix2 (- k) = (/ bpow radix2 k)%R.
Proof. apply bpow_opp. Qed.

Section near.
  Context (num den : Z) (Hn : 0 < num) (Hd : 0 < den).
  Let x : R := (IZR num / IZR den)%R.
  Let l : Z := Z.log2 num - Z.log2 den.
  Lemma near_pos : (0 < IZR num ∧ 0 < IZR den ∧ 0 < x)%R.
  Proof using Hn Hd.
    assert (0 < IZR num)%R by (by apply IZR_lt). assert (0 < IZR den)%R by (by apply IZR_lt). split; [done|]. split; [done|].
    unfold x, Rdiv. apply Rmult_lt_0_compat; [done|]. by apply Rinv_0_lt_compat.
  Qed.
  Lemma near_le k : ((if 0 <=? k then den * 2 ^ k <=? num else den <=? num * 2 ^ (- k)) = true ↔ bpow radix2 k <= x)%R.
  Proof using Hn Hd.
    destruct near_pos as (N & D & X). assert (∀ y, (y <= x ↔ y * IZR den <= IZR num)%R) as Hx.
    { intros y. unfold x. split; intros H.
      - apply (Rmult_le_compat_r (IZR den)) in H; [|lra]. unfold Rdiv in H. rewrite Rmult_assoc, Rinv_l in H by lra. lra.
      - apply (Rmult_le_reg_r (IZR den)); [done|]. unfold Rdiv. rewrite Rmult_assoc, Rinv_l by lra. lra. }
    rewrite Hx. destruct (Z.leb_spec 0 k) as [K|K].
    - rewrite Z.leb_le, bpow_pow, <- mult_IZR, Z.mul_comm by done. split; [apply IZR_le|apply le_IZR].
    - rewrite Z.leb_le. replace k with (- - k) at 2 by lia. rewrite bpow_inv, bpow_pow by lia. set (p := 2 ^ (- k)).
      assert (0 < p) by (apply Z.pow_pos_nonneg; lia). assert (0 < IZR p)%R by (by apply IZR_lt). split; intros H'.
      + apply IZR_le in H'. rewrite mult_IZR in H'. apply (Rmult_le_reg_l (IZR p)); [done|]. rewrite <- Rmult_assoc, Rinv_r by lra. lra.
      + apply le_IZR. rewrite mult_IZR. apply (Rmult_le_compat_l (IZR p)) in H'; [|lra]. rewrite <- Rmult_assoc, Rinv_r in H' by lra. lra.
  Qed.
  Lemma near_bounds : (bpow radix2 (l - 1) <= x < bpow radix2 (l + 1))%R.
  Proof using Hn Hd.
    destruct near_pos as (N & D & X). pose proof (Z.log2_spec num Hn) as [N1 N2]. pose proof (Z.log2_spec den Hd) as [D1 D2].
    pose proof (Z.log2_nonneg num). pose proof (Z.log2_nonneg den).
    apply IZR_le in N1, D1. apply IZR_lt in N2, D2. rewrite <- bpow_pow in N1, N2, D1, D2 by lia.
    assert (x * IZR den = IZR num)%R as E by (unfold x; field; lra). split.
    - apply (Rmult_le_reg_r (IZR den)); [done|]. rewrite E. eapply Rle_trans; [|exact N1].
      apply Rle_trans with (bpow radix2 (l - 1) * bpow radix2 (Z.succ (Z.log2 den)))%R.
      + apply Rmult_le_compat_l; [apply bpow_ge_0|lra].
      + rewrite <- bpow_plus. apply bpow_le. unfold l. lia.
    - apply (Rmult_lt_reg_r (IZR den)); [done|]. rewrite E. eapply Rlt_le_trans; [exact N2|].
      apply Rle_trans with (bpow radix2 (l + 1) * bpow radix2 (Z.log2 den))%R.
      + rewrite <- bpow_plus. apply bpow_le. unfold l. lia.
      + apply Rmult_le_compat_l; [apply bpow_ge_0|lra].
  Qed.
  Let above := if 0 <=? l then den * 2 ^ l <=? num else den <=? num * 2 ^ (- l).
  Lemma near_mag : mag_val _ _ (mag radix2 x) = (if above then l else l - 1) + 1.
  Proof using Hn Hd.
    destruct near_bounds as [B1 B2]. apply mag_unique_pos. unfold above. destruct (if 0 <=? l then _ else _) eqn:E.
    - apply near_le in E. replace (l + 1 - 1) with l by lia. done.
    - replace (l - 1 + 1 - 1) with (l - 1) by lia. split; [done|]. replace (l - 1 + 1) with l by lia.
      apply Rnot_le_lt. intros H. apply near_le in H. congruence.
  Qed.
  Lemma near_quot e : (if 0 <=? e then div_half_even num (den * 2 ^ e) else div_half_even (num * 2 ^ (- e)) den) = ZnearestE (x * bpow radix2 (- e)).
  Proof using Hn Hd.
    destruct near_pos as (N & D & X). destruct (Z.leb_spec 0 e).
    - rewrite div_half_even_nearest by (apply Z.mul_pos_pos; [done|apply Z.pow_pos_nonneg; lia]). f_equal.
      rewrite bpow_inv, bpow_pow, mult_IZR by lia. unfold x. assert (0 < IZR (2 ^ e))%R by (apply IZR_lt, Z.pow_pos_nonneg; lia). field. lra.
    - rewrite div_half_even_nearest by done. f_equal. rewrite bpow_pow, mult_IZR by lia. unfold x. field. lra.
  Qed.
End near.

Lemma nearest_round neg num den f : 0 ≤ num → 0 < den → nearest neg num den = Some f →
  fval f = ((if neg then -1 else 1) * rnd (IZR num / IZR den))%R.
Proof.
  intros Hn Hd. unfold nearest. destruct (Z.eqb_spec num 0) as [->|Hnz].
  { intros [= <-]. unfold Rdiv. rewrite Rmult_0_l. unfold rnd. rewrite round_0 by apply _. cbn. destruct neg; ring. }
  assert (0 < num) as Hp by lia. clear Hn Hnz.
  pose proof (near_mag num den Hp Hd) as Hm. set (above := if 0 <=? Z.log2 num - Z.log2 den then _ else _) in *.
  set (x := (IZR num / IZR den)%R) in *.
  set (e := Z.max _ _). rewrite (near_quot num den Hp Hd e). fold x. set (q := ZnearestE _).
  assert (rnd x = IZR q * bpow radix2 e)%R as Hr.
  { unfold rnd, round, scaled_mantissa, cexp, F2R. rewrite Hm. unfold FLT_exp. cbn [Fnum Fexp].
    replace (Z.max ((if above then Z.log2 num - Z.log2 den else Z.log2 num - Z.log2 den - 1) + 1 - 53) emin64) with e by (unfold e; lia). done. }
  assert (0 ≤ q) as Hq.
  { unfold q. rewrite <- (ZnearestE_int 0). apply ZnearestE_mono. apply Rmult_le_pos; [|apply bpow_ge_0].
    destruct (near_pos num den Hp Hd) as (_ & _ & ?). fold x in H. lra. }
  rewrite Hr. clearbody q e. intros Hf.
  assert (∀ m k g, 0 ≤ m → (if 971 <? k then None else match m with Zpos p => Some (S754_finite neg p k) | _ => Some (S754_zero neg) end) = Some g →
    fval g = ((if neg then -1 else 1) * (IZR m * bpow radix2 k))%R) as G.
  { intros m k g Hm0 E. destruct (971 <? k); [done|]. destruct m as [|m|m]; [| |lia]; injection E as <-; cbn [fval].
    - destruct neg; ring.
    - rewrite bpow_powerRZ. cbn [IZR radix_val radix2]. destruct neg; ring. }
  destruct (Z.eqb_spec q (2 ^ 53)) as [->|Hne].
  - rewrite (G (2 ^ 52) (e + 1) f ltac:(lia) Hf). f_equal. rewrite bpow_plus. change (IZR (2 ^ 53)) with (IZR (2 ^ 52 * 2)). rewrite mult_IZR.
    change (bpow radix2 1) with 2%R. ring.
  - by apply G.
Qed.

(** ** decimal texts without exponent *)
Lemma digit_of_spec c k : digit_of c = Some k → is_digit c = true ∧ zcode c - 48 = k.
Proof.
  unfold digit_of, is_digit, within, zcode. destruct ((48 <=? code c)%N && (code c <=? 57)%N) eqn:E; [|done]. intros [= <-].
  apply andb_true_iff in E as [E1 E2]. apply N.leb_le in E1, E2. rewrite andb_true_iff, !Z.leb_le. lia.
Qed.
Lemma read_frac_spec s : ∀ a b n d, read_frac a b s = Some (n, d) → dstr s ∧ n = nat_value a s ∧ d = b * 10 ^ Z.of_nat (String.length s).
Proof.
  induction s as [|c s IH]; intros a b n d; cbn [read_frac].
  - intros [= <- <-]. split; [apply dstr_nil|]. split; [done|]. cbn. lia.
  - destruct (digit_of c) as [k|] eqn:E; [|done]. apply digit_of_spec in E as [E1 E2]. cbn. intros H. apply IH in H as (H1 & H2 & H3).
    split; [by apply dstr_cons|]. split.
    + rewrite H2. f_equal. lia.
    + rewrite H3. cbn [String.length]. rewrite Nat2Z.inj_succ, Z.pow_succ_r by lia. lia.
Qed.
Lemma read_unsigned_spec s : ∀ a n d, read_unsigned a s = Some (n, d) →
  ∃ ip fp, dstr ip ∧ dstr fp ∧ (s = ip ∧ fp = "" ∨ s = ip +:+ "." +:+ fp ∧ fp ≠ "") ∧
    n = nat_value (nat_value a ip) fp ∧ d = 10 ^ Z.of_nat (String.length fp).
Proof.
  induction s as [|c s IH]; intros a n d; cbn [read_unsigned].
  - intros [= <- <-]. exists "", "". split; [apply dstr_nil|]. split; [apply dstr_nil|]. split; [by left|]. done.
  - destruct (ascii_dec c "."%char) as [->|Hc].
    + destruct s as [|c' s']; [done|]. intros H. apply read_frac_spec in H as (H1 & H2 & H3). exists "", (String c' s').
      split; [apply dstr_nil|]. split; [done|]. split; [by right|]. split; [done|]. by rewrite H3, Z.mul_1_l.
    + destruct (digit_of c) as [k|] eqn:E; [|done]. apply digit_of_spec in E as [E1 E2]. cbn. intros H. apply IH in H as (ip & fp & H1 & H2 & H3 & H4 & H5).
      exists (String c ip), fp. split; [by apply dstr_cons|]. split; [done|]. split.
      * destruct H3 as [[-> ->]|[-> ?]]; [by left|right]. by rewrite !sapp_cons.
      * split; [|done]. rewrite H4. cbn [nat_value]. do 2 f_equal. lia.
Qed.
Lemma nat_value_nonneg s : ∀ a, 0 ≤ a → dstr s → 0 ≤ nat_value a s.
Proof.
  induction s as [|c s IH]; intros a Ha Hs; [done|]. cbn. apply dstr_cons in Hs as [Hc Hs]. apply IH; [|done].
  unfold is_digit, within in Hc. apply andb_true_iff in Hc as [Hc _]. apply Z.leb_le in Hc. lia.
Qed.
Lemma read_digits_parse (neg : bool) s n d : read_digits s = Some (n, d) → 0 ≤ n ∧ 0 < d ∧
  parse_float ((if neg then "-" else "") +:+ s) = nearest neg n d.
Proof.
  unfold read_digits. destruct s as [|c s']; [done|]. destruct (digit_of c) as [k|] eqn:Ec; [|done]. apply digit_of_spec in Ec as [Ec _].
  intros H. apply read_unsigned_spec in H as (ip & fp & H1 & H2 & H3 & -> & ->).
  assert (∃ rest, String c s' = ip +:+ rest ∧ (rest = "" ∧ fp = "" ∨ rest = "." +:+ fp ∧ fp ≠ "")) as (rest & Es & Hrest).
  { destruct H3 as [[-> ->]|[-> ?]]; [exists ""; split; [by rewrite sapp_nil_r|by left]|eauto]. }
  assert (digits_only ip) as Hip.
  { split; [|done]. intros ->. destruct Hrest as [[-> _]|[-> _]]; [done|]. change ("" +:+ "." +:+ fp) with (String "." fp) in Es. injection Es as -> ->. done. }
  split; [|split; [apply Z.pow_pos_nonneg; lia|]].
  { apply nat_value_nonneg; [|done]. apply nat_value_nonneg; [lia|done]. }
  unfold parse_float. rewrite Es, minus_sg by done. rewrite digits_app; [|apply Hip|].
  2:{ intros c0 t E. destruct Hrest as [[-> _]|[-> _]]; [done|]. rewrite sapp_cons in E. by injection E as <- _. }
  rewrite <- nat_value_app. destruct Hrest as [[-> ->]|[-> Hfp]].
  - cbn [bind]. change (String.length "") with 0%nat. cbn [Z.of_nat Z.sub Z.add Z.opp]. change (0 <=? 0) with true. cbv iota.
    rewrite Z.pow_0_r, Z.mul_1_r. done.
  - rewrite sapp_cons. change ("" +:+ fp) with fp. cbn [Ascii.eqb Bool.eqb]. rewrite digits_dstr by done. cbn [bind].
    destruct fp as [|c0 fp]; [done|]. set (j := String.length (String c0 fp)). rewrite (proj2 (Z.leb_gt _ _)).
    + f_equal.
    + assert (0 < j)%nat by (cbn; lia). lia.
Qed.

Lemma read_back_error t f n d : read_num t = Some (n, d) → parse_float t = Some f →
  (Rabs (IZR n / IZR d - fval f) <= / 2 * ulp radix2 fexp64 (fval f))%R ∧ 0 < d.
Proof.
  intros Hr Hp. assert (∃ (neg : bool) m, n = (if neg then - m else m) ∧ 0 ≤ m ∧ 0 < d ∧ nearest neg m d = Some f) as (neg & m & -> & Hm & Hd & Hf).
  { unfold read_num in Hr. destruct t as [|c t']; [done|]. destruct (ascii_dec c "-"%char) as [->|].
    - destruct (read_digits t') as [[m d']|] eqn:E; [|done]. cbn in Hr. injection Hr as <- <-.
      destruct (read_digits_parse true _ _ _ E) as (A & B & C). exists true, m. split_and!; try done. rewrite <- C. done.
    - destruct (read_digits_parse false _ _ _ Hr) as (A & B & C). exists false, n. split_and!; try done. rewrite <- C. done. }
  split; [|done]. rewrite (nearest_round _ _ _ _ Hm Hd Hf). set (x := (IZR m / IZR d)%R).
  pose proof (error_le_half_ulp_round radix2 fexp64 (fun z => negb (Z.even z)) x) as He.
  change (round radix2 fexp64 ZnearestE x) with (rnd x) in He.
  assert (0 < IZR d)%R by (by apply IZR_lt). destruct neg.
  - rewrite opp_IZR. replace (- IZR m / IZR d - -1 * rnd x)%R with (rnd x - x)%R by (unfold x; field; lra).
    replace (-1 * rnd x)%R with (- rnd x)%R by ring. rewrite ulp_opp. done.
  - replace (IZR m / IZR d - 1 * rnd x)%R with (- (rnd x - x))%R by (unfold x; field; lra). rewrite Rabs_Ropp, Rmult_1_l. done.
Qed.

(** ** gauges *)
Lemma tenth_repr : frepr f_tenth (fval f_tenth) ∧ frepr f_mtenth (fval f_mtenth) ∧ (fval f_tenth <= / 8)%R ∧ (- / 8 <= fval f_mtenth)%R.
Proof.
  assert (f_tenth = S754_finite false 7205759403792794 (-56)) as -> by (by vm_compute).
  assert (f_mtenth = S754_finite true 7205759403792794 (-56)) as -> by (by vm_compute).
  split; [by apply finite_repr|]. split; [by apply finite_repr|]. cbn [fval]. change 2%R with (IZR (radix_val radix2)). rewrite <- bpow_powerRZ.
  replace (-56) with (- (56)) by done. rewrite bpow_inv, bpow_pow by lia. change (2 ^ 56) with 72057594037927936. lra.
Qed.
Lemma small_gauge v : valid_binary 53 1024 v = true → ffinite v = true → fltb v f_tenth && fgtb v f_mtenth = true → (Rabs (fval v) <= / 8)%R.
Proof.
  intros Hv Hf H. apply andb_true_iff in H as [H1 H2]. destruct tenth_repr as (T1 & T2 & T3 & T4). pose proof (finite_repr v Hv Hf) as R.
  rewrite (frepr_ltb _ _ _ _ R T1) in H1. change (fltb f_mtenth v = true) in H2. rewrite (frepr_ltb _ _ _ _ T2 R) in H2.
  destruct (Rlt_bool_spec (fval v) (fval f_tenth)); [|done]. destruct (Rlt_bool_spec (fval f_mtenth) (fval v)); [|done].
  apply Rabs_le. lra.
Qed.
Lemma small_ulp x : (Rabs x <= / 8)%R → (ulp radix2 fexp64 x <= 0.01)%R.
Proof.
  intros H. apply Rle_trans with (ulp radix2 fexp64 (/ 8)).
  - apply ulp_le; [apply _..|]. rewrite (Rabs_pos_eq (/ 8)) by lra. done.
  - assert (bpow radix2 (-3) = / 8)%R as <- by (change (-3) with (- (3)); by rewrite bpow_inv, bpow_pow by lia). rewrite ulp_bpow. apply Rle_trans with (bpow radix2 (-7)).
    + apply bpow_le. unfold FLT_exp. lia.
    + change (-7) with (- (7)). rewrite bpow_inv, bpow_pow by lia. change (2 ^ 7) with 128. lra.
Qed.
Lemma thm_gauge_text_all o v : short_codec (o_short o) → valid_binary 53 1024 v = true → ffinite v = true →
  ∃ x, denotes (gauge_text o v) x ∧ (Rabs (x - fval v) <= 0.005)%R.
Proof.
  intros Hs Hv Hf. destruct (fltb v f_tenth && fgtb v f_mtenth) eqn:E; [|by apply thm_gauge_text].
  unfold gauge_text. rewrite E. destruct (Hs v Hv Hf) as [[[n d] Hr] Hp]. destruct (read_back_error _ _ _ _ Hr Hp) as [He Hd].
  exists (IZR n / IZR d)%R. split; [by exists n, d|]. pose proof (small_ulp _ (small_gauge v Hv Hf E)). lra.
Qed.

(** ** a function that does what strconv promises *)
Lemma is_digit_of c : c ∈ list_ascii_of_string "0123456789" → is_Some (digit_of c) ∧ c ≠ "."%char ∧ c ≠ "-"%char.
Proof. intros H. cbn in H. repeat (apply elem_of_cons in H as [->|H]; [by repeat split; eauto|]). by apply elem_of_nil in H. Qed.
Lemma read_frac_ok s : ∀ a b, dstr s → is_Some (read_frac a b s).
Proof.
  induction s as [|c s IH]; intros a b Hs; [eauto|]. cbn [read_frac]. unfold dstr in Hs. cbn in Hs. apply Forall_cons in Hs as [Hc Hs].
  apply is_digit_of in Hc as ([k ->] & _ & _). cbn. by apply IH.
Qed.
Lemma read_unsigned_ok ip fp : dstr ip → SJson.frac_part fp → ∀ a, is_Some (read_unsigned a (ip +:+ fp)).
Proof.
  intros Hi Hf. induction ip as [|c ip IH]; intros a.
  - change ("" +:+ fp) with fp. destruct Hf as [->|(d & -> & Hd1 & Hd2)]; [eauto|]. rewrite sapp_cons. change ("" +:+ d) with d. cbn [read_unsigned].
    destruct (ascii_dec _ _); [|done]. destruct d; [done|]. by apply read_frac_ok.
  - rewrite sapp_cons. cbn [read_unsigned]. unfold dstr in Hi. cbn in Hi. apply Forall_cons in Hi as [Hc Hi].
    apply is_digit_of in Hc as ([k ->] & Hp & _). destruct (ascii_dec _ _); [done|]. cbn. by apply IH.
Qed.
Lemma int_part_dstr ip : int_part ip → ip ≠ "" ∧ dstr ip.
Proof. intros [->|[[H1 H2] _]]; [|done]. split; [done|]. apply dstr_cons. split; [done|apply dstr_nil]. Qed.
Lemma las (a b : string) : list_ascii_of_string (a +:+ b) = list_ascii_of_string a ++ list_ascii_of_string b.
Proof. induction a as [|c a IH]; [done|]. rewrite sapp_cons. cbn. by rewrite IH. Qed.
Lemma number_text_read t : number_text t → no_exponent t = true → is_Some (read_num t).
Proof.
  intros (sg & ip & fp & ep & -> & Hsg & Hip & Hfp & Hep) Hne.
  assert (ep = "") as ->.
  { destruct Hep as [->|(e & sg' & d & -> & He & _)]; [done|]. exfalso. unfold no_exponent in Hne. rewrite forallb_forall in Hne.
    assert (∃ c, In c (list_ascii_of_string (sg +:+ ip +:+ fp +:+ e +:+ sg' +:+ d)) ∧ (c = "e" ∨ c = "E")%char) as (c & Hc & Hce).
    { assert (∃ c, e = String c "" ∧ (c = "e" ∨ c = "E")%char) as (c & -> & Hce).
      { apply elem_of_cons in He as [->|He]; [eauto|]. apply elem_of_list_singleton in He as ->. eauto. }
      exists c. split; [|done]. rewrite sapp_cons. apply elem_of_list_In. rewrite !las. cbn. set_solver. }
    apply Hne in Hc. by destruct Hce as [-> | ->]. }
  rewrite sapp_nil_r in *. destruct (int_part_dstr _ Hip) as [Hi0 Hid].
  assert (is_Some (read_digits (ip +:+ fp))) as [[n d] Hr].
  { destruct ip as [|c ip]; [done|]. destruct (read_unsigned_ok _ _ Hid Hfp 0) as [x Hx]. rewrite sapp_cons in *. unfold read_digits.
    unfold dstr in Hid. cbn in Hid. apply Forall_cons in Hid as [Hc _]. apply is_digit_of in Hc as ([k ->] & _ & _). cbn [mbind option_bind]. eauto. }
  apply elem_of_cons in Hsg as [->|Hsg].
  - change ("" +:+ ip +:+ fp) with (ip +:+ fp). destruct ip as [|c ip]; [done|]. rewrite sapp_cons in *. cbn [read_num].
    unfold dstr in Hid. cbn in Hid. apply Forall_cons in Hid as [Hc _]. apply is_digit_of in Hc as (_ & _ & Hm). destruct (ascii_dec _ _); [done|]. eauto.
  - apply elem_of_list_singleton in Hsg as ->. rewrite read_num_neg, Hr. cbn. eauto.
Qed.
Lemma first_short_ok f l last : is_Some (read_num last) ∧ parse_float last = Some f →
  is_Some (read_num (first_short f l last)) ∧ parse_float (first_short f l last) = Some f.
Proof.
  intros H. induction l as [|t l IH]; [done|]. cbn. destruct (read_back f t && no_exponent t) eqn:E; [|done].
  apply andb_true_iff in E as [E1 E2]. apply read_back_ok in E1 as [N P]. split; [|done]. by apply number_text_read.
Qed.
Lemma read_digits_point n k : 0 ≤ n → (0 < k)%nat → read_digits (dec_point n k) = Some (n, 10 ^ Z.of_nat k).
Proof.
  intros Hn Hk. unfold dec_point. assert (0 < 10 ^ Z.of_nat k) as Hp by (apply Z.pow_pos_nonneg; lia).
  rewrite read_digits_nat by (apply Z.div_pos; lia). destruct k as [|k]; [lia|].
  change ("." +:+ dec_fixed (S k) n) with (String "." (dec_fixed (S k) n)). cbn [read_unsigned]. destruct (ascii_dec _ _); [|done].
  assert (dec_fixed (S k) n ≠ "") as Hne.
  { cbn [dec_fixed]. intros E. apply (f_equal String.length) in E. rewrite slen_app in E. cbn in E. lia. }
  pose proof (read_dec_fixed (S k) n (n / 10 ^ Z.of_nat (S k)) 1 "") as H. rewrite sapp_nil_r in H.
  pose proof (Z.div_mod n (10 ^ Z.of_nat (S k)) ltac:(lia)) as Hdm.
  destruct (dec_fixed (S k) n) as [|c t]; [done|]. rewrite H. cbn [read_frac]. f_equal. f_equal; lia.
Qed.
Lemma go_short_ok : short_codec go_short.
Proof.
  intros f Hv Hf. destruct f as [s| | |s m e]; try done.
  - destruct s; vm_compute; eauto.
  - cbn [go_short]. apply first_short_ok. cbn in Hv.
    assert (∃ n d, read_digits (if 0 <=? e then dec_nat (Z.pos m * 2 ^ e) else dec_point (Z.pos m * 5 ^ (- e)) (Z.to_nat (- e))) = Some (n, d) ∧
      nearest s n d = Some (S754_finite s m e)) as (n & d & Hr & Hn).
    { destruct (Z.leb_spec 0 e) as [He|He].
      - assert (0 < 2 ^ e) by (apply Z.pow_pos_nonneg; lia). exists (Z.pos m * 2 ^ e), 1. split.
        + rewrite <- (sapp_nil_r (dec_nat _)). by rewrite read_digits_nat by lia.
        + apply nearest_exact; [done|lia|lia|]. destruct (Z.leb_spec 0 e); lia.
      - assert (0 < 5 ^ (- e)) by (apply Z.pow_pos_nonneg; lia). exists (Z.pos m * 5 ^ (- e)), (10 ^ Z.of_nat (Z.to_nat (- e))). split.
        + apply read_digits_point; lia.
        + rewrite Z2Nat.id by lia. apply nearest_exact; [done|apply Z.pow_pos_nonneg; lia|lia|].
          destruct (Z.leb_spec 0 e); [lia|]. change 10 with (5 * 2). rewrite Z.pow_mul_l. ring. }
    destruct (read_digits_parse s _ _ _ Hr) as (_ & _ & Hp). split; [|by rewrite Hp].
    destruct s.
    + rewrite read_num_neg, Hr. cbn. eauto.
    + set (t := if 0 <=? e then _ else _) in *. change ("" +:+ t) with t. clearbody t. unfold read_digits in Hr.
      destruct t as [|c t]; [done|]. destruct (digit_of c) eqn:Ec; [|done]. cbn [read_num].
      destruct (ascii_dec c "-"%char) as [->|]; [done|]. unfold read_digits. rewrite Ec. eauto.
Qed.
