(** * Proofs: the document of a Librato request (C95) *)
From Coq Require Import Reals Lra.
From Flocq Require Import Core.
From Verif Require Import SSend SFloat3 PLibrato PLibrato2 SFloat PFloat PFloat2 PFloat5 PSend.

(** ** the operations give float64s *)
Definition isf64 (f : f64) : Prop := valid_binary 53 1024 f = true.
Lemma isf64_b f : isf64 f → ∃ b : b64, BinarySingleNaN.B2SF b = f.
Proof. intros H. exists (BinarySingleNaN.SF2B f H). apply BinarySingleNaN.B2SF_SF2B. Qed.
Lemma b_isf64 (b : b64) : isf64 (BinarySingleNaN.B2SF b).
Proof. apply BinarySingleNaN.valid_binary_B2SF. Qed.
Lemma isf64_ofZ n : isf64 (fofZ n).
Proof. unfold fofZ. rewrite binary_normalize_equiv. apply b_isf64. Qed.
Lemma isf64_add f g : isf64 f → isf64 g → isf64 (fadd f g).
Proof. intros [x <-]%isf64_b [y <-]%isf64_b. rewrite add_equiv. apply b_isf64. Qed.
Lemma isf64_mul f g : isf64 f → isf64 g → isf64 (fmul f g).
Proof. intros [x <-]%isf64_b [y <-]%isf64_b. rewrite mul_equiv. apply b_isf64. Qed.
Lemma isf64_div f g : isf64 f → isf64 g → isf64 (fdiv f g).
Proof. intros [x <-]%isf64_b [y <-]%isf64_b. rewrite div_equiv. apply b_isf64. Qed.
Lemma isf64_sum l : ∀ x, isf64 x → Forall isf64 l → isf64 (fold_left fadd l x).
Proof. induction l as [|y l IH]; intros x Hx Hl; [done|]. apply Forall_cons in Hl as [Hy Hl]. apply IH; [by apply isf64_add|done]. Qed.

Lemma isf64_ms n : isf64 (fdiv (fofZ n) (fofZ 1000000)).
Proof. apply isf64_div; apply isf64_ofZ. Qed.
Lemma measured_isf64 c job e k v : measurable e → (k, v) ∈ measured c job e → isf64 v.
Proof.
  intros He Hin. destruct e as [ev|ev er|ev n|ev f|st n]; cbn [measured measurable] in Hin, He; try (by inversion Hin); rewrite !elem_of_cons in Hin;
    (destruct Hin as [[= _ ->]|Hin]; [|try (destruct Hin as [[= _ ->]|Hin]; [|by inversion Hin]); try (by inversion Hin)]);
    try exact He; apply isf64_ms.
Qed.
Lemma samples_isf64 c k cmds : Forall (λ x, measurable x.2) cmds → Forall isf64 (samples c k cmds).
Proof.
  intros Hm. apply Forall_forall. intros v Hv. unfold samples in Hv. apply elem_of_list_In, in_map_iff in Hv as ([k' v']&E&Hin). cbn in E. subst v'.
  apply elem_of_list_In, elem_of_list_filter in Hin as [_ Hin]. apply elem_of_list_In, in_concat in Hin as (l&Hl&Hin).
  apply in_map_iff in Hl as ([job e]&<-&He). apply elem_of_list_In in He. rewrite Forall_forall in Hm. apply Hm in He. apply elem_of_list_In in Hin. by eapply measured_isf64.
Qed.
Lemma summary_isf64 l g : Forall isf64 l → SLibrato.summarises l g → isf64 (lg_sum g) ∧ isf64 (lg_min g) ∧ isf64 (lg_max g) ∧ isf64 (lg_ss g).
Proof.
  intros Hl (x&l'&->&_&->&->&[Hmin _]&[Hmax _]). pose proof Hl as Hall. rewrite Forall_forall in Hall. apply Forall_cons in Hl as [Hx Hl].
  split; [by apply isf64_sum|]. split; [by apply Hall|]. split; [by apply Hall|]. apply isf64_sum; [by apply isf64_mul|].
  apply Forall_forall. intros y Hy. apply elem_of_list_In, in_map_iff in Hy as (z&<-&Hz). apply elem_of_list_In in Hz. rewrite Forall_forall in Hl. apply Hl in Hz. by apply isf64_mul.
Qed.
Lemma batch_ok c cmds b : Forall (λ x, measurable x.2) cmds → summable c cmds → batch c cmds b → ∀ k v, b !! k = Some v → lval_ok v.
Proof.
  intros Hm Hs Hb k v Hk. destruct (Hb k) as [(_&_&E)|[(H0&Hs'&E)|(H0&g&Hg&E)]]; rewrite E in Hk; [done| |]; injection Hk as <-; [done|].
  destruct (Hs k g Hg) as (F1&F2&F3&F4). destruct (summary_isf64 _ g (samples_isf64 c k cmds Hm) Hg) as (V1&V2&V3&V4).
  unfold lval_ok, float_ok. rewrite !marshals_finite. done.
Qed.
Lemma thm_librato_body ff c tr now : let cmds := since_flush [] tr in
  float_codec ff → utf8_names c → in_int64 now → in_int64 (c_period c) → cmds ≠ [] → Forall (λ x, measurable x.2) cmds → summable c cmds →
  ∃ v body, lib_send_text ff c (lib_run c lib0 tr) now = [body] ∧ json_text v body ∧ post_json c cmds now v.
Proof.
  cbn. intros Hff Hc Hnow Hper Hne Hm Hs. destruct (run_ok c tr) as [Hct Ht]. set (s := lib_run c lib0 tr) in *. set (cmds := since_flush [] tr) in *.
  pose proof (gauges_batch c s cmds Hct Ht) as Hb. pose proof (batch_ok c cmds _ Hm Hs Hb) as Hok.
  assert (¬ (lb_timers s = ∅ ∧ lb_counters s = ∅)) as Hnon by (by rewrite (cmds_nonempty c cmds s Hct Ht)).
  destruct (post_ok ff c cmds (lib_gauges s) now) as (v&E&P&J); try done.
  { unfold in_int64 in *. pose proof (Z.quot_rem' (c_period c) 1000000000). pose proof (Z.rem_bound_abs (c_period c) 1000000000 ltac:(done)). pose proof (Z.rem_sign_mul (c_period c) 1000000000 ltac:(done)). nia. }
  { intros E. apply Hnon. unfold lib_gauges in E. split; apply map_eq; intros k; rewrite lookup_empty; pose proof (f_equal (lookup k) E) as Ek;
      rewrite lookup_union, !lookup_fmap, lookup_empty in Ek; destruct (lb_timers s !! k), (lb_counters s !! k); done. }
  exists v, (MJson.compact v). split; [|done]. unfold lib_send_text. rewrite decide_False by done. unfold post_body. rewrite E. done.
Qed.
Lemma thm_modest_summable c cmds : Forall (λ x, modest x.2) cmds → Forall (λ x, measurable x.2) cmds ∧ summable c cmds.
Proof.
  intros H. split.
  - eapply Forall_impl; [exact H|]. intros [job e] He. destruct e; cbn in *; try done; by destruct He as (?&?&?).
  - intros k g Hg. eapply summary_finite; [|exact Hg]. apply Forall_forall. intros v Hv. unfold samples in Hv. apply elem_of_list_In, in_map_iff in Hv as ([k' v']&E&Hin). cbn in E. subst v'.
    apply elem_of_list_In, elem_of_list_filter in Hin as [_ Hin]. apply elem_of_list_In, in_concat in Hin as (l&Hl&Hin).
    apply in_map_iff in Hl as ([job e]&<-&He). apply elem_of_list_In in He. rewrite Forall_forall in H. apply H in He. apply elem_of_list_In in Hin. by eapply measured_bounded.
Qed.
