(** * Proofs about UTF-8 *)
From Verif Require Import SUtf8.

Lemma zcode_bound c : 0 ≤ zcode c < 256.
Proof. unfold zcode, code. pose proof (N_ascii_bounded c). lia. Qed.
Lemma zcode_zchar n : 0 ≤ n < 256 → zcode (zchar n) = n.
Proof. intros H. unfold zcode, zchar, code. rewrite N_ascii_embedding by lia. lia. Qed.
Lemma zchar_zcode c : zchar (zcode c) = c.
Proof. unfold zcode, zchar, code. rewrite N2Z.id. apply ascii_N_embedding. Qed.

Lemma within_spec lo hi c : within lo hi c = true ↔ lo ≤ zcode c ≤ hi.
Proof. unfold within. rewrite andb_true_iff, !Z.leb_le. done. Qed.

(** an encoded character is read back *)
Lemma decode_utf8 r t : scalar r → ∃ c s, utf8 r +:+ t = String c s ∧ decode_rune c s = (r, t).
Proof.
  intros Hr. unfold scalar in Hr. unfold utf8. repeat case_decide.
  - exists (zchar r), t. split; [done|]. unfold decode_rune. rewrite zcode_zchar by lia. destruct (Z.ltb_spec r 128); [done|lia].
  - pose proof (Z.div_mod r 64). pose proof (Z.mod_pos_bound r 64).
    eexists _, _. split; [reflexivity|]. unfold decode_rune. cbn [String.append].
    rewrite (zcode_zchar (192 + r / 64)) by lia.
    assert (within 128 191 (zchar (128 + r `mod` 64)) = true) as Hw by (apply within_spec; rewrite zcode_zchar; lia).
    unfold second_lo, second_hi. 
    repeat match goal with |- context [(?a <? ?b)] => destruct (Z.ltb_spec a b); try lia end.
    repeat match goal with |- context [(?a =? ?b)] => destruct (Z.eqb_spec a b); try lia end.
    rewrite Hw. cbn [negb]. rewrite zcode_zchar by lia. f_equal. lia.
  - assert (r / 4096 = r / 64 / 64) as E by (rewrite Z.div_div by lia; done).
    pose proof (Z.div_mod r 64). pose proof (Z.mod_pos_bound r 64). pose proof (Z.div_mod (r / 64) 64). pose proof (Z.mod_pos_bound (r / 64) 64).
    rewrite E in *. set (q := r / 64) in *. set (q2 := q / 64) in *. set (m1 := r `mod` 64) in *. set (m2 := q `mod` 64) in *.
    eexists _, _. split; [reflexivity|]. unfold decode_rune. cbn [String.append].
    rewrite (zcode_zchar (224 + q2)) by lia.
    assert (within (second_lo (224 + q2)) (second_hi (224 + q2)) (zchar (128 + m2)) = true) as Hw.
    { apply within_spec. rewrite zcode_zchar by lia. unfold second_lo, second_hi.
      repeat match goal with |- context [(?a =? ?b)] => destruct (Z.eqb_spec a b); try lia end. }
    assert (within 128 191 (zchar (128 + m1)) = true) as Hw2 by (apply within_spec; rewrite zcode_zchar; lia).
    repeat match goal with |- context [(?a <? ?b)] => destruct (Z.ltb_spec a b); try lia end.
    rewrite Hw, Hw2. cbn [negb]. rewrite !zcode_zchar by lia. f_equal. lia.
  - assert (r / 4096 = r / 64 / 64) as E by (rewrite Z.div_div by lia; done).
    assert (r / 262144 = r / 64 / 64 / 64) as E2 by (rewrite !Z.div_div by lia; done).
    pose proof (Z.div_mod r 64). pose proof (Z.mod_pos_bound r 64). pose proof (Z.div_mod (r / 64) 64). pose proof (Z.mod_pos_bound (r / 64) 64).
    pose proof (Z.div_mod (r / 64 / 64) 64). pose proof (Z.mod_pos_bound (r / 64 / 64) 64).
    rewrite E2, E in *. set (q := r / 64) in *. set (q2 := q / 64) in *. set (q3 := q2 / 64) in *. set (m1 := r `mod` 64) in *. set (m2 := q `mod` 64) in *. set (m3 := q2 `mod` 64) in *.
    eexists _, _. split; [reflexivity|]. unfold decode_rune. cbn [String.append].
    rewrite (zcode_zchar (240 + q3)) by lia.
    assert (within (second_lo (240 + q3)) (second_hi (240 + q3)) (zchar (128 + m3)) = true) as Hw.
    { apply within_spec. rewrite zcode_zchar by lia. unfold second_lo, second_hi.
      repeat match goal with |- context [(?a =? ?b)] => destruct (Z.eqb_spec a b); try lia end. }
    assert (within 128 191 (zchar (128 + m2)) = true) as Hw2 by (apply within_spec; rewrite zcode_zchar; lia).
    assert (within 128 191 (zchar (128 + m1)) = true) as Hw3 by (apply within_spec; rewrite zcode_zchar; lia).
    repeat match goal with |- context [(?a <? ?b)] => destruct (Z.ltb_spec a b); try lia end.
    rewrite Hw, Hw2, Hw3. cbn [negb]. rewrite !zcode_zchar by lia. f_equal. lia.
Qed.

(** what is read is there, or one invalid byte was skipped *)
Lemma decode_rune_spec c s r t : decode_rune c s = (r, t) →
  (scalar r ∧ String c s = utf8 r +:+ t) ∨ (r = 65533 ∧ t = s ∧ ∀ r' t', scalar r' → String c s ≠ utf8 r' +:+ t').
Proof.
  intros H.
  assert (Hc : (scalar r ∧ String c s = utf8 r +:+ t) ∨ (r = 65533 ∧ t = s)).
  { pose proof (zcode_bound c) as B. unfold decode_rune in H.
    destruct (Z.ltb_spec (zcode c) 128).
    { injection H as <- <-. left. split; [unfold scalar; lia|]. unfold utf8. rewrite decide_True by done. by rewrite zchar_zcode. }
    destruct (Z.ltb_spec (zcode c) 194); [injection H as <- <-; by right|].
    destruct (Z.ltb_spec 244 (zcode c)); [injection H as <- <-; by right|].
    destruct s as [|c1 s1]; [injection H as <- <-; by right|].
    destruct (within _ _ c1) eqn:W1; cbn [negb] in H; [|injection H as <- <-; by right].
    apply within_spec in W1. pose proof (zcode_bound c1) as B1. unfold second_lo, second_hi in W1.
    destruct (Z.ltb_spec (zcode c) 224).
    { injection H as <- <-. left.
      destruct (Z.eqb_spec (zcode c) 224), (Z.eqb_spec (zcode c) 240), (Z.eqb_spec (zcode c) 237), (Z.eqb_spec (zcode c) 244); try lia.
      split; [unfold scalar; lia|]. unfold utf8. rewrite decide_False, decide_True by lia.
      replace (((zcode c - 192) * 64 + (zcode c1 - 128)) / 64) with (zcode c - 192) by (rewrite Z.div_add_l, Z.div_small by lia; lia).
      replace (((zcode c - 192) * 64 + (zcode c1 - 128)) `mod` 64) with (zcode c1 - 128) by (rewrite Z.add_comm, Z.mod_add, Z.mod_small by lia; lia).
      replace (192 + (zcode c - 192)) with (zcode c) by lia. replace (128 + (zcode c1 - 128)) with (zcode c1) by lia. by rewrite !zchar_zcode. }
    destruct s1 as [|c2 s2]; [injection H as <- <-; by right|].
    destruct (within _ _ c2) eqn:W2; cbn [negb] in H; [|injection H as <- <-; by right].
    apply within_spec in W2.
    assert (M : ∀ a x, 0 ≤ x < 64 → (a * 64 + x) / 64 = a ∧ (a * 64 + x) `mod` 64 = x).
    { intros a x Hx. split; [rewrite Z.div_add_l, Z.div_small by lia; lia|rewrite Z.add_comm, Z.mod_add, Z.mod_small by lia; lia]. }
    destruct (Z.ltb_spec (zcode c) 240).
    { injection H as <- <-. left.
      set (r := (zcode c - 224) * 4096 + (zcode c1 - 128) * 64 + (zcode c2 - 128)).
      assert (Er : r = ((zcode c - 224) * 64 + (zcode c1 - 128)) * 64 + (zcode c2 - 128)) by (unfold r; lia).
      assert (128 ≤ zcode c1 ≤ 191 ∧ (zcode c = 224 → 160 ≤ zcode c1) ∧ (zcode c = 237 → zcode c1 ≤ 159)) as (Hb&Hb1&Hb2).
      { destruct (Z.eqb_spec (zcode c) 224), (Z.eqb_spec (zcode c) 240), (Z.eqb_spec (zcode c) 237), (Z.eqb_spec (zcode c) 244); lia. }
      clear W1. split.
      { unfold scalar, r. destruct (decide (zcode c = 224)); [lia|]. destruct (decide (zcode c = 237)); [lia|].
        destruct (decide (zcode c ≤ 236)); [lia|]. lia. }
      unfold utf8. rewrite decide_False, decide_False, decide_True by (unfold r; destruct (decide (zcode c = 224)); lia).
      destruct (M ((zcode c - 224) * 64 + (zcode c1 - 128)) (zcode c2 - 128)) as [D1 M1]; [lia|].
      destruct (M (zcode c - 224) (zcode c1 - 128)) as [D2 M2]; [lia|].
      replace (r / 4096) with (r / 64 / 64) by (rewrite Z.div_div by lia; done).
      rewrite Er, D1, M1, D2, M2. replace (224 + (zcode c - 224)) with (zcode c) by lia. replace (128 + (zcode c1 - 128)) with (zcode c1) by lia.
      replace (128 + (zcode c2 - 128)) with (zcode c2) by lia. by rewrite !zchar_zcode. }
    destruct s2 as [|c3 s3]; [injection H as <- <-; by right|].
    destruct (within _ _ c3) eqn:W3; cbn [negb] in H; [|injection H as <- <-; by right].
    apply within_spec in W3. injection H as <- <-. left.
    set (r := (zcode c - 240) * 262144 + (zcode c1 - 128) * 4096 + (zcode c2 - 128) * 64 + (zcode c3 - 128)).
    assert (Er : r = (((zcode c - 240) * 64 + (zcode c1 - 128)) * 64 + (zcode c2 - 128)) * 64 + (zcode c3 - 128)) by (unfold r; lia).
    assert (128 ≤ zcode c1 ≤ 191 ∧ (zcode c = 240 → 144 ≤ zcode c1) ∧ (zcode c = 244 → zcode c1 ≤ 143)) as (Hb&Hb1&Hb2).
    { destruct (Z.eqb_spec (zcode c) 224), (Z.eqb_spec (zcode c) 240), (Z.eqb_spec (zcode c) 237), (Z.eqb_spec (zcode c) 244); lia. }
    clear W1. split.
    { unfold scalar, r. right. destruct (decide (zcode c = 240)); [lia|]. destruct (decide (zcode c = 244)); lia. }
    unfold utf8. rewrite decide_False, decide_False, decide_False by (unfold r; destruct (decide (zcode c = 240)); lia).
    destruct (M (((zcode c - 240) * 64 + (zcode c1 - 128)) * 64 + (zcode c2 - 128)) (zcode c3 - 128)) as [D1 M1]; [lia|].
    destruct (M ((zcode c - 240) * 64 + (zcode c1 - 128)) (zcode c2 - 128)) as [D2 M2]; [lia|].
    destruct (M (zcode c - 240) (zcode c1 - 128)) as [D3 M3]; [lia|].
    replace (r / 4096) with (r / 64 / 64) by (rewrite Z.div_div by lia; done).
    replace (r / 262144) with (r / 64 / 64 / 64) by (rewrite !Z.div_div by lia; done).
    rewrite Er, D1, M1, D2, M2, D3, M3. replace (240 + (zcode c - 240)) with (zcode c) by lia. replace (128 + (zcode c1 - 128)) with (zcode c1) by lia.
    replace (128 + (zcode c2 - 128)) with (zcode c2) by lia. replace (128 + (zcode c3 - 128)) with (zcode c3) by lia. by rewrite !zchar_zcode. }
  destruct Hc as [?|[-> ->]]; [by left|].
  right. split; [done|]. split; [done|]. intros r' t' Hr E.
  destruct (decode_utf8 r' t' Hr) as (c'&s'&E'&D). rewrite <-E in E'. injection E' as <- <-.
  rewrite H in D. injection D as <- <-. injection E as _ E. apply (f_equal String.length) in E. cbn in E. lia.
Qed.

Lemma decode_shorter c s r t : decode_rune c s = (r, t) → (String.length t ≤ String.length s)%nat.
Proof.
  intros H. apply decode_rune_spec in H as [[Hr E]|(_&->&_)]; [|done].
  assert (∃ a b, utf8 r = String a b) as (a&b&Eu). { unfold utf8. repeat case_decide; eauto. }
  rewrite Eu in E. change (String c s = String a (b +:+ t)) in E. injection E as <- ->. clear. induction b as [|x b IH]; [done|].
  change (String.length t ≤ S (String.length (b +:+ t)))%nat. lia.
Qed.
Lemma runes_fuel_reads f : ∀ s, (String.length s ≤ f)%nat → reads s (runes_fuel f s).
Proof.
  induction f as [|f IH]; intros s Hl; destruct s as [|c s]; cbn in Hl |- *; [constructor|lia|constructor|].
  destruct (decode_rune c s) as [r t] eqn:D. pose proof (decode_shorter _ _ _ _ D).
  apply decode_rune_spec in D as [[Hr ->]|(->&->&Hb)]; constructor; try done; apply IH; lia.
Qed.
Lemma runes_reads s : reads s (runes s).
Proof. by apply runes_fuel_reads. Qed.
Lemma reads_unique s rs1 : reads s rs1 → ∀ rs2, reads s rs2 → rs1 = rs2.
Proof.
  assert (U : ∀ r, ∃ a b, utf8 r = String a b) by (intros r; unfold utf8; repeat case_decide; eauto).
  induction 1 as [|r s rs Hr Hs IH|c s rs Hb Hs IH]; intros rs2 H2.
  - inversion H2 as [|r' s' rs' Hr' Hs' E|]; [done|]. exfalso. destruct (U r') as (a&b&Eu). by rewrite Eu in E.
  - remember (utf8 r +:+ s) as x eqn:Ex. destruct H2 as [|r' s' rs' Hr' Hs'|c s' rs' Hb' Hs'].
    + destruct (U r) as (a&b&Eu). by rewrite Eu in Ex.
    + destruct (decode_utf8 r s Hr) as (c1&t1&E1&D1). destruct (decode_utf8 r' s' Hr') as (c2&t2&E2&D2).
      rewrite <-Ex, E2 in E1. injection E1 as -> ->. rewrite D1 in D2. injection D2 as -> ->. f_equal. by apply IH.
    + exfalso. by eapply Hb'.
  - remember (String c s) as x eqn:Ex. destruct H2 as [|r' s' rs' Hr' Hs'|c' s' rs' Hb' Hs'].
    + done.
    + exfalso. by eapply Hb.
    + injection Ex as -> ->. f_equal. by apply IH.
Qed.
Lemma runes_spec s rs : reads s rs ↔ runes s = rs.
Proof. split; [intros H; by eapply reads_unique; [apply runes_reads|]|intros <-; apply runes_reads]. Qed.
Lemma runes_cons c s : runes (String c s) = (decode_rune c s).1 :: runes (decode_rune c s).2.
Proof.
  apply runes_spec. destruct (decode_rune c s) as [r t] eqn:D.
  apply decode_rune_spec in D as [[Hr ->]|(->&->&Hb)]; constructor; try done; apply runes_reads.
Qed.
Lemma runes_char r s : scalar r → runes (utf8 r +:+ s) = r :: runes s.
Proof. intros Hr. apply runes_spec. constructor; [done|]. apply runes_reads. Qed.
Lemma runes_scalar s : Forall scalar (runes s).
Proof.
  pose proof (runes_reads s) as H. induction H; [constructor|by constructor|constructor; [|done]]. unfold scalar. lia.
Qed.
