(** * Proofs: identifiers, counts of descriptors *)
From Verif Require Import SIdent PNum PNum2 PWire PWire2 PRuntime.

Lemma last_dot {A} (x : A) l1 : ∀ l2 r1 r2, x ∉ r1 → x ∉ r2 → l1 ++ x :: r1 = l2 ++ x :: r2 → l1 = l2 ∧ r1 = r2.
Proof.
  induction l1 as [|a l1 IH]; intros [|b l2] r1 r2 H1 H2 E; cbn in E.
  - by injection E.
  - injection E as <- ->. destruct H1. apply elem_of_app. right. by left.
  - injection E as -> <-. destruct H2. apply elem_of_app. right. by left.
  - injection E as <- E. destruct (IH _ _ _ H1 H2 E) as [-> ->]. done.
Qed.
Lemma las_app a b : list_ascii_of_string (a +:+ b) = list_ascii_of_string a ++ list_ascii_of_string b.
Proof. induction a as [|c a IH]; [done|]. change (String c a +:+ b) with (String c (a +:+ b)). cbn. by rewrite IH. Qed.
Lemma las_inj a b : list_ascii_of_string a = list_ascii_of_string b → a = b.
Proof. intros E. rewrite <-(string_of_list_ascii_of_string a), E. apply string_of_list_ascii_of_string. Qed.
Lemma dec_pid p : 0 ≤ p → dec_int p = dec_nat p.
Proof. intros H. unfold dec_int. destruct (Z.ltb_spec p 0); [lia|done]. Qed.
Lemma pid_no_dot p : 0 ≤ p → "."%char ∉ list_ascii_of_string (dec_int p).
Proof.
  intros H Hin. rewrite dec_pid in Hin by done. destruct (dec_nat_ok p H) as (H1&_). unfold dstr in H1. rewrite Forall_forall in H1.
  specialize (H1 _ Hin). cbn in H1. repeat (apply elem_of_cons in H1 as [H1|H1]; [done|]). by apply elem_of_nil in H1.
Qed.
Lemma thm_ident a b p q : 0 ≤ p < 2 ^ 63 → 0 ≤ q < 2 ^ 63 → get_identifier a p = get_identifier b q ↔
  p = q ∧ (a = b ∨ a = None ∧ b = Some "hostname_errored" ∨ a = Some "hostname_errored" ∧ b = None).
Proof.
  intros Hp Hq. unfold get_identifier. split.
  - intros E. apply (f_equal list_ascii_of_string) in E. rewrite !las_app in E.
    apply last_dot in E as [E1 E2]; [|apply pid_no_dot; lia..].
    apply las_inj in E1, E2. apply (f_equal MNum.parse_int) in E2. rewrite !parse_int_ok in E2 by (unfold in_int64; lia). injection E2 as <-. split; [done|].
    destruct a as [a|], b as [b|]; subst; auto.
  - intros [<- [->|[[-> ->]|[-> ->]]]]; done.
Qed.
Lemma thm_apart who P : identified who P → pids_ok who → (∀ i, (who i).1 ≠ None) → (∀ i j, who i = who j → i = j) →
  ∀ i j, p_inst (P i) = p_inst (P j) → i = j.
Proof.
  intros HI Hp Hh Hw i j E. rewrite !HI in E. pose proof (Hp i). pose proof (Hp j).
  apply thm_ident in E as [E1 E2]; [|lia..]. apply Hw. pose proof (Hh i). pose proof (Hh j).
  destruct (who i), (who j); cbn in *. destruct E2 as [->|[[-> _]|[_ ->]]]; congruence.
Qed.
Lemma zcode_N c : zcode c = Z.of_N (Ascii.N_of_ascii c).
Proof. done. Qed.
Lemma thm_ident_good h p : 0 ≤ p → ascii_name h → good_name (get_identifier (Some h) p).
Proof.
  intros Hp Hh. apply good_admits. unfold get_identifier. rewrite !plain_app. split_and!.
  - eapply Forall_impl; [exact Hh|]. cbn. intros c [Hc ?]. split; [|done]. rewrite zcode_N. lia.
  - by apply plain_lit.
  - rewrite dec_pid by done. apply plain_dstr. by apply dec_nat_ok.
Qed.
Lemma thm_ident_unknown p : 0 ≤ p → good_name (get_identifier None p).
Proof. intros Hp. apply (thm_ident_good "hostname_errored"); [done|]. by repeat constructor. Qed.

Lemma thm_fds_linux limit fds :
  (fd_usage_linux limit fds).2 = fds ∧
  ((size fds < limit)%nat → (fd_usage_linux limit fds).1 = Some (Z.of_nat (size fds) + 1)) ∧
  ((limit ≤ size fds)%nat → (fd_usage_linux limit fds).1 = None).
Proof.
  unfold fd_usage_linux, open_dir. pose proof (is_fresh fds) as Hf. generalize dependent (fresh fds). intros fd Hf. case_decide; cbn.
  - split_and!; [set_solver|intros _|lia]. rewrite size_union by set_solver. rewrite size_singleton. f_equal. lia.
  - split_and!; [done|lia|done].
Qed.
Lemma thm_fds_gauge o r limit fds v : ro_fds o = true → rd_fds r = (fd_usage_linux limit fds).1 →
  ("num_fds_used", v) ∈ report o r ↔ (size fds < limit)%nat ∧ v = fofZ (Z.of_nat (size fds) + 1).
Proof.
  intros Ho Hr. destruct (thm_fds_linux limit fds) as (_&H1&H2). rewrite <-Hr in H1, H2. clear Hr.
  assert (E : ("num_fds_used", v) ∈ report o r ↔ fofZ <$> rd_fds r = Some v).
  { unfold report. rewrite Ho. rewrite !elem_of_app. split.
    - intros H. repeat match goal with H : _ ∨ _ |- _ => destruct H as [H|H] end;
      repeat match goal with H : context [if ?b then _ else _] |- _ => destruct b end;
      repeat first [by apply elem_of_nil in H|apply elem_of_cons in H as [H|H]; [try discriminate|]].
      destruct (rd_fds r); [|by apply elem_of_nil in H]. apply elem_of_list_singleton in H. injection H as ->. done.
    - intros H. do 5 right. destruct (rd_fds r); [|done]. cbn in H. injection H as <-. by apply elem_of_list_singleton. }
  rewrite E. destruct (decide (size fds < limit)%nat) as [Hl|Hl].
  - rewrite (H1 Hl). cbn. split; [intros [= <-]; done|intros [_ ->]; done].
  - rewrite H2 by lia. split; [done|]. intros [? _]. lia.
Qed.
Lemma thm_fds_refuted : ∃ limit fds, (fd_usage_linux limit fds).1 ≠ Some (Z.of_nat (size fds)) ∧
  (fd_usage_linux (size fds) fds).1 = None ∧ (fd_usage_darwin fds).1 ≠ Some (Z.of_nat (size fds)).
Proof. exists 1024%nat, {[0; 1; 2]}%nat. by vm_compute. Qed.
Lemma thm_unknown : ∃ (h : option string) (p : Z), get_identifier None p = get_identifier h p ∧ h ≠ None.
Proof. exists (Some "hostname_errored"), 7. split; [by vm_compute|done]. Qed.
