(** * Proofs about healthd's API *)
From Verif Require Import SApi PContent PHealthd PHealthd2 PHealthd3 PMerge PMerge2.

(** ** Strings *)
Lemma app_cons_s c s t : String c s +:+ t = String c (s +:+ t).
Proof. done. Qed.
Lemma str_ltb_irrefl s : str_ltb s s = false.
Proof. induction s as [|c s IH]; [done|]. cbn. by rewrite N.ltb_irrefl. Qed.
Lemma str_ltb_spec s t : str_ltb s t = true ↔ str_lt s t.
Proof.
  revert t. induction s as [|a s IH]; intros [|b t]; cbn [str_ltb].
  - split; [done|]. intros [(c&u&?)|(p&x&y&s'&t'&H&_)]; [done|]. by destruct p.
  - split; [|done]. intros _. left. exists b, t. done.
  - split; [done|]. intros [(c&u&?)|(p&x&y&s'&t'&_&H&_)]; [done|]. by destruct p.
  - destruct (N.ltb_spec (code a) (code b)) as [Hab|Hab].
    { split; [|done]. intros _. right. by exists "", a, b, s, t. }
    destruct (N.ltb_spec (code b) (code a)) as [Hba|Hba].
    { split; [done|]. intros [(c&u&H)|(p&x&y&s'&t'&H1&H2&H3)].
      - rewrite app_cons_s in H. injection H as -> _. lia.
      - destruct p as [|z p]; [injection H1 as -> _; injection H2 as -> _; lia|].
        rewrite app_cons_s in H1, H2. injection H1 as -> _; injection H2 as -> _; lia. }
    assert (code a = code b) as Hc by lia.
    assert (a = b) as -> by (rewrite <-(ascii_N_embedding a), <-(ascii_N_embedding b); unfold code in Hc; by rewrite Hc).
    rewrite IH. split.
    + intros [(c&u&->)|(p&x&y&s'&t'&->&->&H)]; [left; by exists c, u|right].
      exists (String b p), x, y, s', t'. done.
    + intros [(c&u&H)|(p&x&y&s'&t'&H1&H2&H3)].
      * rewrite app_cons_s in H. injection H as ->. left. by exists c, u.
      * destruct p as [|z p]; [injection H1 as -> _; injection H2 as -> _; lia|].
        rewrite app_cons_s in H1, H2. injection H1 as -> ->; injection H2 as ->. right. by exists p, x, y, s', t'.
Qed.
Lemma str_ltb_trans s t u : str_ltb s t = true → str_ltb t u = true → str_ltb s u = true.
Proof.
  revert t u. induction s as [|a s IH]; intros [|b t] [|c u]; cbn [str_ltb]; try done.
  repeat match goal with |- context [N.ltb ?x ?y] => destruct (N.ltb_spec x y) end; try done; try lia. apply IH.
Qed.
Lemma str_ltb_total s t : str_ltb s t = false → str_ltb t s = false → s = t.
Proof.
  revert t. induction s as [|a s IH]; intros [|b t]; cbn [str_ltb]; try done.
  repeat match goal with |- context [N.ltb ?x ?y] => destruct (N.ltb_spec x y) end; try done; try lia.
  intros H1 H2. assert (code a = code b) as Hc by lia.
  assert (a = b) as -> by (rewrite <-(ascii_N_embedding a), <-(ascii_N_embedding b); unfold code in Hc; by rewrite Hc).
  f_equal. by apply IH.
Qed.
Lemma str_ltb_neg_trans s t u : str_ltb s t = false → str_ltb t u = false → str_ltb s u = false.
Proof.
  intros H1 H2. destruct (str_ltb s u) eqn:E; [|done]. exfalso.
  destruct (str_ltb t s) eqn:E1.
  - rewrite (str_ltb_trans t s u) in H2; done.
  - assert (s = t) as -> by (by apply str_ltb_total). congruence.
Qed.
Lemma str_ltb_le s t : str_ltb t s = false → str_le s t.
Proof.
  intros H. unfold str_le. destruct (str_ltb s t) eqn:E; [right; by apply str_ltb_spec|left; by apply str_ltb_total].
Qed.

(** ** Floats: comparison through an embedding into triples *)
Definition fkey (f : f64) : Z * Z * Z :=
  match f with
  | S754_zero _ => (0, 0, 0)
  | S754_infinity true => (-2, 0, 0)
  | S754_infinity false => (2, 0, 0)
  | S754_nan => (0, 0, 0)
  | S754_finite true m e => (-1, - e, - Zpos m)
  | S754_finite false m e => (1, e, Zpos m)
  end.
Definition klt (a b : Z * Z * Z) : Prop :=
  a.1.1 < b.1.1 ∨ (a.1.1 = b.1.1 ∧ (a.1.2 < b.1.2 ∨ (a.1.2 = b.1.2 ∧ a.2 < b.2))).
Lemma fltb_key a b : a ≠ S754_nan → b ≠ S754_nan → fltb a b = true ↔ klt (fkey a) (fkey b).
Proof.
  intros Ha Hb. unfold fltb, SFltb, SFcompare, klt, fkey.
  destruct a as [[]|[]| |[] m1 e1], b as [[]|[]| |[] m2 e2]; cbn; try done.
  all: try (split; [intros; lia|intros; first [done|lia]]).
  - destruct (Z.compare_spec e1 e2) as [|?|?].
    + subst. rewrite <-Pos.compare_antisym. destruct (Pos.compare_spec m2 m1); split; intros; try done; lia.
    + split; intros; [done|lia].
    + split; intros; [lia|done].
  - destruct (Z.compare_spec e1 e2) as [|?|?].
    + subst. change (Pos.compare_cont Eq m1 m2) with (Pos.compare m1 m2). destruct (Pos.compare_spec m1 m2); split; intros; try done; lia.
    + split; intros; [lia|done].
    + split; intros; [done|lia].
Qed.
Lemma fltb_false a b : a ≠ S754_nan → b ≠ S754_nan → fltb a b = false ↔ ¬ klt (fkey a) (fkey b).
Proof. intros Ha Hb. rewrite <-(fltb_key a b) by done. destruct (fltb a b); split; intros; try done; by exfalso; apply H. Qed.

(** ** Strict weak orders *)
Lemma sw_Z {A} (f : A → Z) l : strict_weak (λ a b, f b <? f a) l.
Proof. split_and!; intros; rewrite ?Z.ltb_lt, ?Z.ltb_ge in *; lia. Qed.
Lemma sw_str {A} (f : A → string) l : strict_weak (λ a b, str_ltb (f a) (f b)) l.
Proof.
  split_and!; intros *; [intros _; apply str_ltb_irrefl|intros _ _ _; apply str_ltb_trans|intros _ _ _; apply str_ltb_neg_trans].
Qed.
Lemma sw_float {A} (f : A → f64) l : (∀ a, a ∈ l → f a ≠ S754_nan) → strict_weak (λ a b, fgtb (f a) (f b)) l.
Proof.
  intros H. unfold fgtb. change SFltb with fltb. split_and!.
  - intros a Ha. apply fltb_false; [auto|auto|]. unfold klt. lia.
  - intros a b c Ha Hb Hc. rewrite !fltb_key by auto. unfold klt. lia.
  - intros a b c Ha Hb Hc. rewrite !fltb_false by auto. unfold klt. lia.
Qed.

Lemma sorters_column sort : is_Some (job_sorters sort) ↔ column sort.
Proof.
  unfold job_sorters, column. rewrite !elem_of_cons, elem_of_nil. split.
  - repeat (case_bool_decide; [tauto|]). by intros [??].
  - intros H. repeat (case_bool_decide; [eauto|]). tauto.
Qed.
Lemma sorters_weak sort less rows : job_sorters sort = Some less → no_nan sort rows → strict_weak less rows.
Proof.
  unfold job_sorters. intros H Hn.
  repeat (case_bool_decide; [injection H as <-; subst|]); try done.
  all: first [apply sw_str | apply sw_Z | apply sw_float; intros a Ha; by apply (Hn a Ha)].
Qed.
Lemma sorters_precede sort less a b : job_sorters sort = Some less → less b a = false → may_precede sort a b.
Proof.
  unfold job_sorters. intros H Hl.
  repeat (case_bool_decide; [injection H as <-; subst|]); try done.
  all: rewrite ?Z.ltb_ge in Hl; constructor; try done. by apply str_ltb_le.
Qed.

Lemma SSorted_impl {A} (R S : A → A → Prop) l : (∀ a b, R a b → S a b) → StronglySorted R l → StronglySorted S l.
Proof. intros H. induction 1 as [|a l _ IH Hf]; constructor; [done|]. eapply Forall_impl; [exact Hf|]. auto. Qed.

(** ** Rows *)
Lemma rows_true o order r : order ≡ₚ map_to_list (ia_jobs o) → r ∈ map (λ kj, api_job kj.1 kj.2) order → true_row o r.
Proof.
  intros Ho ([k j]&->&Hin)%elem_of_list_fmap. rewrite Ho in Hin. apply elem_of_map_to_list in Hin.
  exists j. cbn. split_and!; done.
Qed.
Lemma rows_names order : map aj_name (map (λ kj : string * jobagg, api_job kj.1 kj.2) order) = map fst order.
Proof. rewrite map_map. done. Qed.

Lemma sort_jobs_spec srt rows sort : correct_sort srt →
  sort_jobs srt rows sort ≡ₚ rows ∧ (column sort → no_nan sort rows → StronglySorted (may_precede sort) (sort_jobs srt rows sort)).
Proof.
  intros Hc. unfold sort_jobs. destruct (job_sorters sort) as [less|] eqn:E.
  - destruct (Hc less rows) as [Hp Hs]. split; [done|]. intros _ Hn.
    specialize (Hs (sorters_weak _ _ _ E Hn)).
    eapply SSorted_impl; [|exact Hs]. cbn. intros a b. by apply sorters_precede.
  - split; [done|]. intros Hcol%sorters_column. rewrite E in Hcol. by destruct Hcol.
Qed.

Lemma thm_filter_jobs srt o order sort limit :
  correct_sort srt → order ≡ₚ map_to_list (ia_jobs o) →
  ∃ js rest, filter_jobs srt (Some o) order sort limit = Some js ∧
    (∀ r, r ∈ js ++ rest → true_row o r) ∧
    NoDup (map aj_name (js ++ rest)) ∧
    (∀ name, is_Some (ia_jobs o !! name) ↔ name ∈ map aj_name (js ++ rest)) ∧
    Z.of_nat (length js) = (if decide (0 < limit) then Z.min limit (Z.of_nat (size (ia_jobs o))) else Z.of_nat (size (ia_jobs o))) ∧
    (column sort → no_nan sort (js ++ rest) → StronglySorted (may_precede sort) (js ++ rest)).
Proof.
  intros Hc Ho. unfold filter_jobs. set (rows := map (λ kj, api_job kj.1 kj.2) order).
  destruct (sort_jobs_spec srt rows sort Hc) as [Hp Hs]. set (sorted := sort_jobs srt rows sort) in *.
  assert (Hlen : length sorted = size (ia_jobs o)).
  { rewrite Hp. subst rows. rewrite map_length, Ho. done. }
  assert (G : ∀ js rest, js ++ rest = sorted →
    (∀ r, r ∈ js ++ rest → true_row o r) ∧ NoDup (map aj_name (js ++ rest)) ∧
    (∀ name, is_Some (ia_jobs o !! name) ↔ name ∈ map aj_name (js ++ rest)) ∧
    (column sort → no_nan sort (js ++ rest) → StronglySorted (may_precede sort) (js ++ rest))).
  { intros js rest ->. split_and!.
    - intros r Hr. rewrite Hp in Hr. by apply (rows_true o order).
    - rewrite (Permutation_map aj_name Hp). subst rows. rewrite rows_names, (Permutation_map fst Ho).
      apply NoDup_fst_map_to_list.
    - intros name. rewrite (Permutation_map aj_name Hp). subst rows. rewrite rows_names, (Permutation_map fst Ho).
      rewrite elem_of_list_fmap. split.
      + intros [j Hj]. exists (name, j). split; [done|]. by apply elem_of_map_to_list.
      + intros ([k j]&->&Hj%elem_of_map_to_list). eauto.
    - intros Hcol Hn. apply Hs; [done|]. intros r Hr. apply Hn. by rewrite Hp. }
  destruct (Z.ltb_spec 0 limit) as [Hl|Hl].
  - rewrite decide_True by done.
    set (n := Z.to_nat (if Z.of_nat (length sorted) <? limit then Z.of_nat (length sorted) else limit)).
    exists (take n sorted), (drop n sorted). split; [done|].
    destruct (G (take n sorted) (drop n sorted)) as (G1&G2&G3&G4); [apply take_drop|].
    split_and!; try done.
    rewrite take_length, <-Hlen. subst n. destruct (Z.ltb_spec (Z.of_nat (length sorted)) limit); lia.
  - rewrite decide_False by lia. exists sorted, []. split; [done|].
    destruct (G sorted []) as (G1&G2&G3&G4); [apply app_nil_r|]. split_and!; try done. by rewrite Hlen.
Qed.

(** ** Overall *)
Lemma merge_all_jobs s l j : is_Some (ia_jobs (merge_all s l) !! j) ↔ ∃ i, i ∈ l ∧ is_Some (ia_jobs i !! j).
Proof.
  unfold merge_all. assert (∀ a, is_Some (ia_jobs (fold_left ia_merge l a) !! j) ↔
    is_Some (ia_jobs a !! j) ∨ ∃ i, i ∈ l ∧ is_Some (ia_jobs i !! j)) as ->.
  - induction l as [|x l IH]; intros a; cbn [fold_left].
    + split; [by left|]. intros [?|(i&Hi%elem_of_nil&_)]; done.
    + rewrite IH, ia_merge_jobs. split.
      * intros [H|(i&Hi&H)]; [|right; exists i; split; [by right|done]].
        destruct (ia_jobs a !! j); [left; eauto|]. right. exists x. split; [left|done].
      * intros [[y ->]|(i&Hi&H)]; [left; by destruct (ia_jobs x !! j); eauto|].
        apply elem_of_cons in Hi as [->|Hi]; [|right; eauto].
        left. destruct (ia_jobs a !! j), (ia_jobs x !! j); eauto.
  - cbn. rewrite lookup_empty. split; [|by right]. intros [[]|?]; done.
Qed.
Lemma thm_overall_null aggs : handler_overall aggs = None ↔ aggs = [].
Proof. by destruct aggs. Qed.
Lemma thm_overall_sums i aggs :
  (∀ x, x ∈ i :: aggs → int64_ia x) →
  ∃ o, handler_overall (i :: aggs) = Some o ∧ ia_start o = ia_start i ∧
    (∀ c, ctr_val c o = w64 (zsum (map (ctr_val c) (i :: aggs)))) ∧
    (∀ j, is_Some (ia_jobs o !! j) ↔ ∃ x, x ∈ i :: aggs ∧ is_Some (ia_jobs x !! j)).
Proof.
  intros H. eexists. split; [done|]. split; [apply merge_all_start|]. split.
  - intros c. by apply merge_all_ctr.
  - intros j. apply merge_all_jobs.
Qed.

(** ** Hosts *)
Lemma thm_hosts srt hosts : correct_sort srt →
  handler_hosts srt hosts ≡ₚ hosts ∧ StronglySorted (λ a b, str_le (hs_hp a) (hs_hp b)) (handler_hosts srt hosts).
Proof.
  intros Hc. unfold handler_hosts. destruct (Hc (λ a b, str_ltb (hs_hp a) (hs_hp b)) hosts) as [Hp Hs].
  split; [done|]. eapply SSorted_impl; [|apply Hs, sw_str]. cbn. intros a b. apply str_ltb_le.
Qed.

(** ** Limits *)
Lemma digit_of_digit d : 0 ≤ d ≤ 9 → digit_of (digit_ascii d) = Some d.
Proof.
  intros H. assert (d ∈ [0;1;2;3;4;5;6;7;8;9]) as Hd by (rewrite !elem_of_cons; lia).
  rewrite !elem_of_cons, elem_of_nil in Hd. repeat destruct Hd as [->|Hd]; try done.
Qed.
Lemma digit_of_inv c d : digit_of c = Some d → 0 ≤ d ≤ 9 ∧ c = digit_ascii d.
Proof.
  unfold digit_of. intros H. destruct (48 <=? Z.of_N (code c)) eqn:E1; [|done]. destruct (Z.of_N (code c) <=? 57) eqn:E2; [|done].
  cbn in H. injection H as <-. rewrite Z.leb_le in E1, E2. split; [lia|].
  unfold digit_ascii. replace (Z.to_N (48 + (Z.of_N (code c) - 48))) with (code c) by lia. by rewrite ascii_N_embedding.
Qed.
Lemma parse_digits_value acc ds : Forall (λ d, 0 ≤ d ≤ 9) ds →
  parse_digits acc (string_of_list_ascii (map digit_ascii ds)) = Some (acc * 10 ^ Z.of_nat (length ds) + place_value ds).
Proof.
  intros H. revert acc. induction H as [|d ds Hd _ IH]; intros acc; cbn [map string_of_list_ascii parse_digits length place_value].
  - f_equal. change (10 ^ Z.of_nat 0) with 1. lia.
  - rewrite digit_of_digit by done. rewrite IH. f_equal. rewrite Nat2Z.inj_succ, Z.pow_succ_r by lia. lia.
Qed.
Lemma parse_digits_inv acc s n : parse_digits acc s = Some n →
  ∃ ds, Forall (λ d, 0 ≤ d ≤ 9) ds ∧ s = string_of_list_ascii (map digit_ascii ds) ∧
    n = acc * 10 ^ Z.of_nat (length ds) + place_value ds.
Proof.
  revert acc. induction s as [|c s IH]; intros acc; cbn [parse_digits].
  - intros [= <-]. exists []. split_and!; [constructor|done|]. cbn. lia.
  - destruct (digit_of c) as [d|] eqn:E; [|done]. intros H.
    apply digit_of_inv in E as [Hd ->]. apply IH in H as (ds&Hds&->&->).
    exists (d :: ds). split_and!; [by constructor|done|].
    cbn [length place_value]. rewrite Nat2Z.inj_succ, Z.pow_succ_r by lia. lia.
Qed.
Lemma place_value_nonneg ds : Forall (λ d, 0 ≤ d ≤ 9) ds → 0 ≤ place_value ds.
Proof. induction 1 as [|d ds Hd _ IH]; cbn [place_value]; [lia|]. assert (0 ≤ 10 ^ Z.of_nat (length ds)) by (apply Z.pow_nonneg; lia). nia. Qed.

Lemma numeral_parse s n : numeral s n ↔ s ≠ "" ∧ parse_digits 0 s = Some n.
Proof.
  split.
  - intros (ds&Hne&Hds&->&->). split; [by destruct ds|]. by rewrite parse_digits_value.
  - intros [Hne H]. apply parse_digits_inv in H as (ds&Hds&->&->). exists ds. split_and!; [by intros ->|done|done|].
    rewrite Z.mul_0_l. done.
Qed.
Lemma numeral_nonneg s n : numeral s n → 0 ≤ n.
Proof. intros (ds&_&Hds&_&->). by apply place_value_nonneg. Qed.
Lemma not_digit_sign s n c : (c = 45 ∨ c = 43)%N → numeral s n → ∀ a t, s = String a t → code a ≠ c.
Proof.
  intros Hc (ds&Hne&Hds&->&_) a t Heq. destruct ds as [|d ds]; [done|]. cbn in Heq. injection Heq as <- _.
  inversion Hds as [|?? Hd]; subst. assert (d ∈ [0;1;2;3;4;5;6;7;8;9]) as Hd' by (rewrite !elem_of_cons; lia).
  rewrite !elem_of_cons, elem_of_nil in Hd'. destruct Hc as [-> | ->]; repeat destruct Hd' as [->|Hd']; try done.
Qed.
Lemma code_inj a b : code a = code b → a = b.
Proof. intros H. rewrite <-(ascii_N_embedding a), <-(ascii_N_embedding b). unfold code in H. by rewrite H. Qed.

Lemma parse_int_spec s n : parse_int s = Some n ↔ int_numeral s n.
Proof.
  unfold parse_int, int_numeral, in_int64.
  destruct s as [|c s].
  { split; [done|]. intros [_ [(ds&?&_&?&_)|[(t&?&_)|(t&?&_)]]]; try done. by destruct ds. }
  case_bool_decide as H45; [|case_bool_decide as H43].
  - assert (c = "-"%char) as -> by (by apply code_inj).
    split.
    + destruct s as [|c' s']; [done|]. set (u := String c' s') in *.
      destruct (parse_digits 0 u) as [k|] eqn:E; [|done]. destruct (Z.leb_spec k (2 ^ 63)); [|done].
      intros [= <-]. assert (numeral u k) as Hk by (apply numeral_parse; done).
      pose proof (numeral_nonneg _ _ Hk). split; [lia|]. right. right. exists u. rewrite Z.opp_involutive. done.
    + intros [Hi [H|[(t&Ht&H)|(t&Ht&H)]]].
      * by destruct (not_digit_sign _ _ 45 (or_introl eq_refl) H "-" s).
      * done.
      * injection Ht as ->. apply numeral_parse in H as [Hne H]. destruct t; [done|]. rewrite H.
        assert (- n <= 2 ^ 63) as Hle by lia. apply Z.leb_le in Hle. rewrite Hle. f_equal. lia.
  - assert (c = "+"%char) as -> by (by apply code_inj).
    split.
    + destruct s as [|c' s']; [done|]. set (u := String c' s') in *.
      destruct (parse_digits 0 u) as [k|] eqn:E; [|done]. destruct (Z.ltb_spec k (2 ^ 63)); [|done].
      intros [= <-]. assert (numeral u k) as Hk by (apply numeral_parse; done).
      pose proof (numeral_nonneg _ _ Hk). split; [lia|]. right. left. by exists u.
    + intros [Hi [H|[(t&Ht&H)|(t&Ht&H)]]].
      * by destruct (not_digit_sign _ _ 43 (or_intror eq_refl) H "+" s).
      * injection Ht as ->. apply numeral_parse in H as [Hne H]. destruct t; [done|]. rewrite H.
        assert (n < 2 ^ 63) as Hle by lia. apply Z.ltb_lt in Hle. by rewrite Hle.
      * done.
  - set (u := String c s) in *. split.
    + destruct (parse_digits 0 u) as [k|] eqn:E; [|done]. destruct (Z.ltb_spec k (2 ^ 63)); [|done].
      intros [= <-]. assert (numeral u k) as Hk by (apply numeral_parse; done).
      pose proof (numeral_nonneg _ _ Hk). split; [lia|]. by left.
    + intros [Hi [H|[(t&Ht&H)|(t&Ht&H)]]].
      * apply numeral_parse in H as [Hne H]. cbn iota. rewrite H.
        assert (n < 2 ^ 63) as Hle by lia. apply Z.ltb_lt in Hle. by rewrite Hle.
      * exfalso. apply H43. subst u. by injection Ht as -> _.
      * exfalso. apply H45. subst u. by injection Ht as -> _.
Qed.
Lemma thm_limit s : (∀ n, int_numeral s n → get_limit s = n) ∧ ((∀ n, ¬ int_numeral s n) → get_limit s = 0).
Proof.
  unfold get_limit. split.
  - intros n H%parse_int_spec. by rewrite H.
  - intros H. destruct (parse_int s) as [n|] eqn:E; [|done]. apply parse_int_spec in E. by destruct (H n).
Qed.

(** ** A correct sort exists *)
Fixpoint sinsert {A} (less : A → A → bool) (x : A) (l : list A) : list A :=
  match l with [] => [x] | y :: l' => if less x y then x :: l else y :: sinsert less x l' end.
Definition isort {A} : sorting_fn A := λ less l, foldr (sinsert less) [] l.
Lemma sinsert_perm {A} less (x : A) l : sinsert less x l ≡ₚ x :: l.
Proof. induction l as [|y l IH]; cbn; [done|]. case_match; [done|]. rewrite IH. constructor. Qed.
Lemma isort_perm {A} less (l : list A) : isort less l ≡ₚ l.
Proof. induction l as [|x l IH]; cbn; [done|]. rewrite sinsert_perm. by constructor. Qed.
Lemma isort_correct {A} : correct_sort (@isort A).
Proof.
  intros less l. split; [apply isort_perm|]. intros Hw.
  assert (G : ∀ l', (∀ a, a ∈ l' → a ∈ l) → StronglySorted (λ a b, less b a = false) (isort less l')).
  { destruct Hw as (W1&W2&W3). induction l' as [|x l' IH]; intros Hin; [constructor|].
    assert (Hs : StronglySorted (λ a b, less b a = false) (isort less l')) by (apply IH; intros a Ha; apply Hin; by right).
    assert (Hx : x ∈ l) by (apply Hin; left).
    assert (Hl : ∀ a, a ∈ isort less l' → a ∈ l) by (intros a Ha; rewrite isort_perm in Ha; apply Hin; by right).
    change (isort less (x :: l')) with (sinsert less x (isort less l')).
    clear IH Hin. induction Hs as [|y s Hs IHs Hf]; cbn; [repeat constructor|].
    assert (Hy : y ∈ l) by (apply Hl; left).
    destruct (less x y) eqn:E.
    - constructor; [by constructor|]. constructor.
      + destruct (less y x) eqn:E2; [|done]. assert (less x x = true) by (by apply (W2 x y x)). by rewrite W1 in H.
      + apply Forall_forall. intros z Hz. rewrite Forall_forall in Hf. specialize (Hf z Hz). cbn in Hf.
        destruct (less z x) eqn:E2; [|done]. assert (less z y = true); [|congruence].
        apply (W2 z x y); [apply Hl; by right|done..].
    - constructor; [apply IHs; intros a Ha; apply Hl; by right|].
      rewrite sinsert_perm. constructor; [done|done]. }
  by apply G.
Qed.
