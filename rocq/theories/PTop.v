(** * Proofs about healthtop and healthd's command line *)
From Verif Require Import STop PApi PWriter PUtf8 PLibrato.

(** ** The filter *)
Lemma has_prefix_spec p : ∀ s, has_prefix p s = true ↔ ∃ b, s = p +:+ b.
Proof.
  induction p as [|a p IH]; intros s; cbn; [split; [exists s; done|by destruct s]|].
  destruct s as [|b s]; [split; [done|intros (b&E); by rewrite sapp_cons in E]|].
  rewrite andb_true_iff, IH. split.
  - intros [->%Ascii.eqb_eq (u&->)]. by exists u.
  - intros (u&E). rewrite sapp_cons in E. injection E as -> ->. split; [apply Ascii.eqb_refl|by exists u].
Qed.
Lemma contains_spec s sub : contains s sub = true ↔ occurs sub s.
Proof.
  induction s as [|c s IH].
  - change (contains "" sub) with (has_prefix sub "" || false). rewrite orb_false_r, has_prefix_spec. split.
    + intros (b&E). exists "", b. done.
    + intros (a&b&E). exists b. destruct a; [done|by rewrite sapp_cons in E].
  - change (contains (String c s) sub) with (has_prefix sub (String c s) || contains s sub).
    rewrite orb_true_iff, has_prefix_spec, IH. split.
    + intros [(b&E)|(a&b&->)]; [exists "", b; done|exists (String c a), b; done].
    + intros (a&b&E). destruct a as [|x a]; [left; exists b; done|]. rewrite sapp_cons in E. injection E as -> ->. right. by exists a, b.
Qed.
Lemma filter_kept jobs name : ∀ acc, ∃ l, fold_left (λ acc j, if contains (aj_name j) name then acc ++ [j] else acc) jobs acc = acc ++ l ∧
  kept (λ j, occurs name (aj_name j)) jobs l.
Proof.
  induction jobs as [|j jobs IH]; intros acc; [exists []; split; [by rewrite app_nil_r|constructor]|]. cbn.
  destruct (contains (aj_name j) name) eqn:E.
  - destruct (IH (acc ++ [j])) as (l&->&Hk). exists (j :: l). rewrite <-app_assoc. split; [done|]. constructor; [by apply contains_spec|done].
  - destruct (IH acc) as (l&->&Hk). exists l. split; [done|]. constructor; [|done]. rewrite <-contains_spec, E. done.
Qed.
Lemma thm_filter jobs name : kept (λ j, occurs name (aj_name j)) jobs (top_jobs jobs name).
Proof.
  unfold top_jobs. case_decide as Hn.
  - subst. assert (G : ∀ s, occurs "" s) by (intros s; exists "", s; done). induction jobs; constructor; [apply G|done].
  - unfold filter_by_name. destruct (filter_kept jobs name []) as (l&->&Hk). done.
Qed.
Lemma kept_sub {A} (P : A → Prop) l l' : kept P l l' → l' `sublist_of` l ∧ (∀ x, x ∈ l' ↔ x ∈ l ∧ P x).
Proof.
  induction 1 as [|x l l' Hx Hk [IH1 IH2]|x l l' Hx Hk [IH1 IH2]].
  - split; [constructor|]. intros x. split; [intros H; inversion H|intros [H _]; inversion H].
  - split; [by constructor|]. intros y. rewrite !elem_of_cons, IH2. naive_solver.
  - split; [by constructor|]. intros y. rewrite !elem_of_cons, IH2. naive_solver.
Qed.

(** ** The status line *)
Lemma top_run_snoc {A} (l : list (tev A)) e : top_run (l ++ [e]) = top_step (top_run l) e.
Proof. unfold top_run. by rewrite fold_left_app. Qed.
Lemma run_times {A} (l : list (tev A)) : 
  (∀ x, x ∈ l → ev_time x ≤ 0 ∨ True) ∧
  ((ts_success (tp_status (top_run l)) = 0 ∨ ∃ a, TResponse a (ts_success (tp_status (top_run l))) ∈ l) ∧
   (ts_error (tp_status (top_run l)) = 0 ∨ TError (ts_text (tp_status (top_run l))) (ts_error (tp_status (top_run l))) ∈ l)).
Proof.
  split; [by right|]. induction l as [|e l [IH1 IH2]] using rev_ind; [cbn; tauto|]. rewrite top_run_snoc. destruct e as [a t|x t]; cbn.
  - split; [right; exists a; apply elem_of_app; right; by apply elem_of_list_singleton|].
    destruct IH2 as [?|?]; [by left|right; apply elem_of_app; by left].
  - split; [|right; apply elem_of_app; right; by apply elem_of_list_singleton].
    destruct IH1 as [?|[a ?]]; [by left|right; exists a; apply elem_of_app; by left].
Qed.
Lemma ssorted_snoc {A} (R : A → A → Prop) l x : StronglySorted R (l ++ [x]) → ∀ y, y ∈ l → R y x.
Proof.
  induction l as [|z l IH]; intros H y Hy; [inversion Hy|]. cbn in H. inversion H as [|? ? Hs Hf]; subst.
  apply elem_of_cons in Hy as [->|Hy]; [|by apply IH]. rewrite Forall_forall in Hf. apply Hf. apply elem_of_app. right. by apply elem_of_list_singleton.
Qed.
Lemma thm_status {A} (fmt : Z → string) (l : list (tev A)) : ticking l →
  (l = [] → fmt_status fmt (tp_status (top_run l)) = "[starting...]") ∧
  (∀ l' a t, l = l' ++ [TResponse a t] → fmt_status fmt (tp_status (top_run l)) = "[success]") ∧
  (∀ l' x t, l = l' ++ [TError x t] → fmt_status fmt (tp_status (top_run l)) = "[error: '" +:+ x +:+ "'    LastErrorAt: " +:+ fmt t +:+ "]").
Proof.
  intros [Hp Hs]. split; [by intros ->|]. split.
  - intros l' a t ->. apply Forall_app in Hp as [Hp Ht]. apply Forall_inv in Ht. cbn in Ht.
    rewrite top_run_snoc. unfold fmt_status. cbn. rewrite (proj2 (Z.eqb_neq t 0)) by lia. rewrite andb_false_r.
    destruct (run_times l') as [_ [_ H]]. destruct (Z.ltb_spec t (ts_error (tp_status (top_run l')))); [|done].
    destruct H as [H|H]; [lia|]. apply (ssorted_snoc _ _ _ Hs) in H. cbn in H. lia.
  - intros l' x t ->. apply Forall_app in Hp as [Hp Ht]. apply Forall_inv in Ht. cbn in Ht.
    rewrite top_run_snoc. unfold fmt_status. cbn. rewrite (proj2 (Z.eqb_neq t 0)) by lia. cbn [andb].
    destruct (run_times l') as [_ [H _]]. destruct (Z.ltb_spec (ts_success (tp_status (top_run l'))) t); [done|].
    destruct H as [H|[a H]]; [lia|]. apply (ssorted_snoc _ _ _ Hs) in H. cbn in H. lia.
Qed.
Lemma thm_status_times {A} (fmt : Z → string) (l : list (tev A)) : 
  (∃ x, fmt_status fmt (tp_status (top_run l)) = "[error: '" +:+ x +:+ "'    LastErrorAt: " +:+ fmt (ts_error (tp_status (top_run l))) +:+ "]") ↔
  ts_success (tp_status (top_run l)) < ts_error (tp_status (top_run l)) ∧ (ts_error (tp_status (top_run l)) ≠ 0 ∨ ts_success (tp_status (top_run l)) ≠ 0).
Proof.
  unfold fmt_status. set (s := tp_status (top_run l)). split.
  - intros (x&E). destruct (Z.eqb_spec (ts_error s) 0), (Z.eqb_spec (ts_success s) 0); cbn in E; try done;
      destruct (Z.ltb_spec (ts_success s) (ts_error s)); try done; split; try lia; tauto.
  - intros [H1 H2]. exists (ts_text s). destruct (Z.eqb_spec (ts_error s) 0), (Z.eqb_spec (ts_success s) 0); cbn; try tauto;
      destruct (Z.ltb_spec (ts_success s) (ts_error s)); try done; lia.
Qed.
Lemma thm_last {A} (l : list (tev A)) a : tp_last (top_run l) = Some a ↔ last_response l a.
Proof.
  unfold last_response. induction l as [|e l IH] using rev_ind.
  - split; [done|]. intros (l1&l2&t&E&_). by destruct l1.
  - rewrite top_run_snoc. destruct e as [b t|x t]; cbn.
    + split.
      * intros [= ->]. exists l, [], t. split; [done|constructor].
      * intros (l1&l2&t'&E&Hf). f_equal. destruct l2 as [|e l2 _] using rev_ind.
        { apply app_inj_tail in E as [_ E]. by injection E. }
        exfalso. rewrite app_comm_cons, app_assoc in E. apply app_inj_tail in E as [_ <-]. apply Forall_app in Hf as [_ Hf]. by apply Forall_inv in Hf.
    + rewrite IH. split.
      * intros (l1&l2&t'&->&Hf). exists l1, (l2 ++ [TError x t]), t'. rewrite <-app_assoc. split; [done|]. apply Forall_app. split; [done|]. by constructor.
      * intros (l1&l2&t'&E&Hf). destruct l2 as [|e l2 _] using rev_ind.
        { by apply app_inj_tail in E as [_ E]. }
        rewrite app_comm_cons, app_assoc in E. apply app_inj_tail in E as [-> <-]. apply Forall_app in Hf as [Hf _]. by exists l1, l2, t'.
Qed.

(** ** Queries *)
Lemma hex_ok n : 0 ≤ n < 16 → unhex (hex_digit n) = Some n ∧ unreserved (hex_digit n) = true.
Proof.
  intros H. assert (Hd : n = 0 ∨ n = 1 ∨ n = 2 ∨ n = 3 ∨ n = 4 ∨ n = 5 ∨ n = 6 ∨ n = 7 ∨ n = 8 ∨ n = 9 ∨ n = 10 ∨ n = 11 ∨ n = 12 ∨ n = 13 ∨ n = 14 ∨ n = 15) by lia.
  destruct_or! Hd; subst; by vm_compute.
Qed.
Lemma unreserved_code c : unreserved c = true → zcode c ≠ 37 ∧ zcode c ≠ 43 ∧ zcode c ≠ 38 ∧ zcode c ≠ 61 ∧ zcode c ≠ 59.
Proof. unfold unreserved, within. rewrite !orb_true_iff, !andb_true_iff, !Z.leb_le, !Z.eqb_eq. lia. Qed.
Lemma unescape_escape s : query_unescape (query_escape s) = Some s.
Proof.
  induction s as [|c s IH]; [done|]. cbn [query_escape]. destruct (unreserved c) eqn:E.
  - rewrite sapp_cons. change ("" +:+ query_escape s) with (query_escape s). cbn [query_unescape].
    apply unreserved_code in E as (H1&H2&_). rewrite (proj2 (Z.eqb_neq _ _) H1), (proj2 (Z.eqb_neq _ _) H2), IH. done.
  - destruct (Z.eqb_spec (zcode c) 32) as [H|H].
    + change ("+" +:+ query_escape s) with (String "+" (query_escape s)). cbn [query_unescape]. 
      change (zcode "+" =? 37) with false. change (zcode "+" =? 43) with true. rewrite IH. cbn. f_equal. f_equal.
      rewrite <-(zchar_zcode c), H. done.
    + change (query_unescape (String "%" (String (hex_digit (zcode c / 16)) (String (hex_digit (zcode c `mod` 16)) (query_escape s)))) = Some (String c s)).
      cbn [query_unescape]. change (zcode "%" =? 37) with true. pose proof (zcode_bound c).
      assert (0 ≤ zcode c / 16 < 16) as Hq by (split; [apply Z.div_pos; lia|apply Z.div_lt_upper_bound; lia]).
      assert (0 ≤ zcode c `mod` 16 < 16) as Hm by (apply Z.mod_pos_bound; lia).
      rewrite (proj1 (hex_ok _ Hq)), (proj1 (hex_ok _ Hm)), IH. cbn. f_equal. f_equal.
      rewrite <-(Z.div_mod (zcode c) 16) by lia. apply zchar_zcode.
Qed.
Definition clean (s : string) : Prop := Forall (λ c, zcode c ≠ 38 ∧ zcode c ≠ 61 ∧ zcode c ≠ 59) (bytes_of s).
Lemma escape_clean s : clean (query_escape s).
Proof.
  unfold clean. induction s as [|c s IH]; [constructor|]. cbn [query_escape]. rewrite bytes_of_app. apply Forall_app. split; [|done].
  destruct (unreserved c) eqn:E.
  - constructor; [|constructor]. apply unreserved_code in E. tauto.
  - case_match; [constructor; [by vm_compute|constructor]|].
    pose proof (zcode_bound c).
    assert (0 ≤ zcode c / 16 < 16) as Hq by (split; [apply Z.div_pos; lia|apply Z.div_lt_upper_bound; lia]).
    assert (0 ≤ zcode c `mod` 16 < 16) as Hm by (apply Z.mod_pos_bound; lia).
    pose proof (unreserved_code _ (proj2 (hex_ok _ Hq))). pose proof (unreserved_code _ (proj2 (hex_ok _ Hm))).
    constructor; [by vm_compute|]. constructor; [tauto|]. constructor; [tauto|constructor].
Qed.
Lemma eqb_zcode a b : Ascii.eqb a b = (zcode a =? zcode b).
Proof.
  destruct (Ascii.eqb_spec a b) as [->|Hn]; [by rewrite Z.eqb_refl|]. symmetry. apply Z.eqb_neq. intros E. apply Hn.
  by rewrite <-(zchar_zcode a), E, zchar_zcode.
Qed.
Lemma cut_none sep s : Forall (λ c, zcode c ≠ zcode sep) (bytes_of s) → cut sep s = (s, "").
Proof.
  induction s as [|c s IH]; intros H; [done|]. cbn in H. apply Forall_cons in H as [H1 H2]. cbn [cut]. rewrite eqb_zcode, (proj2 (Z.eqb_neq _ _) H1), (IH H2). done.
Qed.
Lemma cut_some sep s t : Forall (λ c, zcode c ≠ zcode sep) (bytes_of s) → cut sep (s +:+ String sep t) = (s, t).
Proof.
  induction s as [|c s IH]; intros H.
  - change ("" +:+ String sep t) with (String sep t). cbn [cut]. by rewrite Ascii.eqb_refl.
  - cbn in H. apply Forall_cons in H as [H1 H2]. rewrite sapp_cons. cbn [cut]. rewrite eqb_zcode, (proj2 (Z.eqb_neq _ _) H1), (IH H2). done.
Qed.
Lemma parse_query_empty f : parse_query f "" = [].
Proof. by destruct f. Qed.
(** one parameter, and what follows *)
Lemma parse_one f key v rest : clean key → key ≠ "" → query_unescape key = Some key →
  parse_query (S f) (key +:+ "=" +:+ query_escape v) = [(key, v)] ∧
  parse_query (S f) (key +:+ "=" +:+ query_escape v +:+ "&" +:+ rest) = (key, v) :: parse_query f rest.
Proof.
  intros Hk Hn Hu. pose proof (escape_clean v) as Hv. unfold clean in *.
  assert (Hkv : Forall (λ c, zcode c ≠ 38 ∧ zcode c ≠ 59) (bytes_of (key +:+ "=" +:+ query_escape v))).
  { rewrite !bytes_of_app. rewrite !Forall_app. split; [eapply Forall_impl; [exact Hk|cbn; tauto]|]. split; [by vm_compute; repeat constructor|eapply Forall_impl; [exact Hv|cbn; tauto]]. }
  assert (He : existsb (λ c, Ascii.eqb c ";") (bytes_of (key +:+ "=" +:+ query_escape v)) = false).
  { destruct (existsb _ _) eqn:E; [|done]. apply existsb_exists in E as (c&Hc&E). apply elem_of_list_In in Hc. rewrite Forall_forall in Hkv. apply Hkv in Hc.
    rewrite eqb_zcode in E. apply Z.eqb_eq in E. change (zcode ";") with 59 in E. tauto. }
  assert (Hc2 : cut "=" (key +:+ "=" +:+ query_escape v) = (key, query_escape v)).
  { change ("=" +:+ query_escape v) with (String "=" (query_escape v)). apply cut_some. eapply Forall_impl; [exact Hk|]. cbn. change (zcode "=") with 61. tauto. }
  destruct key as [|k0 key]; [done|]. split.
  - change (String k0 key +:+ "=" +:+ query_escape v) with (String k0 (key +:+ "=" +:+ query_escape v)). cbn [parse_query].
    rewrite cut_none by (eapply Forall_impl; [exact Hkv|]; cbn; change (zcode "&") with 38; tauto).
    change (String k0 (key +:+ "=" +:+ query_escape v)) with (String k0 key +:+ "=" +:+ query_escape v). rewrite Hc2, He, Hu, unescape_escape.
    change (String k0 key +:+ "=" +:+ query_escape v) with (String k0 (key +:+ "=" +:+ query_escape v)). by rewrite parse_query_empty.
  - assert (E : String k0 key +:+ "=" +:+ query_escape v +:+ "&" +:+ rest = (String k0 key +:+ "=" +:+ query_escape v) +:+ String "&" rest) by by rewrite !sapp_assoc.
    rewrite E. pose proof (cut_some "&" (String k0 key +:+ "=" +:+ query_escape v) rest) as Hc.
    change ((String k0 key +:+ "=" +:+ query_escape v) +:+ String "&" rest) with (String k0 ((key +:+ "=" +:+ query_escape v) +:+ String "&" rest)) in Hc |- *. cbn [parse_query].
    rewrite Hc by (eapply Forall_impl; [exact Hkv|]; cbn; change (zcode "&") with 38; tauto).
    rewrite Hc2. change (String k0 key +:+ "=" +:+ query_escape v) with (String k0 (key +:+ "=" +:+ query_escape v)) in He |- *.
    cbn iota beta. rewrite He, Hu, unescape_escape. done.
Qed.
Lemma slen_app (a b : string) : String.length (a +:+ b) = (String.length a + String.length b)%nat.
Proof. induction a as [|x a IH]; [done|]. rewrite sapp_cons. cbn. by rewrite IH. Qed.
Lemma top_params sort name height : let q := top_query sort name height in
  parse_query (String.length q) q =
    (if decide (name = "") then [("limit", dec_nat (max_rows height))] else []) ++ (if decide (sort = "") then [] else [("sort", sort)]).
Proof.
  cbn zeta. unfold top_query.
  assert (Hm : (max_rows height =? 0) = false). { unfold max_rows. apply Z.eqb_neq. case_match; [done|]. destruct (Z.ltb_spec (height - 2) 3); [done|lia]. }
  assert (H1 : clean "limit" ∧ clean "sort") by (split; unfold clean; cbn; repeat constructor; by vm_compute). destruct H1 as [Hl Hs].
  destruct (decide (name = "")) as [->|Hn], (decide (sort = "")) as [->|Ho]; rewrite ?Hm, ?Z.eqb_refl; cbn [app String.concat].
  - change ("limit=" +:+ ?x) with ("limit" +:+ "=" +:+ x). cbn [String.length].
    rewrite slen_app. cbn [String.length plus]. by apply (parse_one _ "limit" _ "").
  - change ("limit=" +:+ query_escape (dec_nat (max_rows height))) with ("limit" +:+ "=" +:+ query_escape (dec_nat (max_rows height))).
    change ("sort=" +:+ query_escape sort) with ("sort" +:+ "=" +:+ query_escape sort). rewrite !sapp_assoc, slen_app. cbn [String.length plus].
    rewrite (proj2 (parse_one _ "limit" _ _ Hl ltac:(done) eq_refl)). f_equal.
    rewrite !slen_app. cbn [String.length plus]. by rewrite (proj1 (parse_one _ "sort" _ "" Hs ltac:(done) eq_refl)).
  - done.
  - change ("sort=" +:+ query_escape sort) with ("sort" +:+ "=" +:+ query_escape sort). rewrite slen_app. cbn [String.length plus].
    by apply (parse_one _ "sort" _ "").
Qed.

Lemma max_rows_ge height : 3 ≤ max_rows height ∧ (5 ≤ height → max_rows height = height - 2).
Proof. unfold max_rows. destruct (Z.ltb_spec (height - 2) 3); lia. Qed.
Lemma thm_query sort name height : height < 2 ^ 63 → let q := top_query sort name height in
  query_get q "sort" = sort ∧ get_limit (query_get q "limit") = (if decide (name = "") then max_rows height else 0).
Proof.
  cbn zeta. intros Hh. unfold query_get. rewrite top_params. pose proof (max_rows_ge height) as [H1 H2].
  assert (Hl : get_limit (dec_nat (max_rows height)) = max_rows height).
  { apply thm_limit. split; [|left; apply dec_nat_numeral; lia]. unfold in_int64. destruct (decide (5 ≤ height)); [rewrite H2 by done; lia|].
    assert (max_rows height = 3) as -> by (unfold max_rows; destruct (Z.ltb_spec (height - 2) 3); lia). lia. }
  destruct (decide (name = "")), (decide (sort = "")); subst; cbn [app]; repeat (rewrite filter_cons; case_decide; cbn in *; try done); try by rewrite filter_nil.
Qed.

(** ** What is listed *)
Lemma sorted_sub {A} (R : A → A → Prop) l l' : l' `sublist_of` l → StronglySorted R l → StronglySorted R l'.
Proof.
  induction 1 as [|x l l' Hs IH|x l l' Hs IH]; intros H; [constructor| |].
  - inversion H as [|? ? H1 H2]; subst. constructor; [by apply IH|]. rewrite Forall_forall in H2 |- *. intros y Hy. apply H2. eapply elem_of_submseteq; [exact Hy|by apply sublist_submseteq].
  - inversion H; subst. by apply IH.
Qed.
Lemma sublist_map {A B} (f : A → B) l l' : l' `sublist_of` l → map f l' `sublist_of` map f l.
Proof. induction 1; cbn; by constructor. Qed.
Lemma nodup_sub {A} (l l' : list A) : l' `sublist_of` l → NoDup l → NoDup l'.
Proof.
  induction 1 as [|x l l' Hs IH|x l l' Hs IH]; intros H; [done| |]; apply NoDup_cons in H as [H1 H2].
  - apply NoDup_cons. split; [|by apply IH]. intros Hx. apply H1. eapply elem_of_submseteq; [exact Hx|by apply sublist_submseteq].
  - by apply IH.
Qed.
Lemma thm_listed srt aggs o order sort name height :
  correct_sort srt → combine aggs = Some o → order ≡ₚ map_to_list (ia_jobs o) → height < 2 ^ 63 →
  let q := top_query sort name height in
  ∃ js rest, handler_jobs srt aggs order (query_get q "sort") (query_get q "limit") = Some js ∧
    let rows := top_jobs js name in
    (∀ r, r ∈ rows → true_row o r ∧ occurs name (aj_name r)) ∧ NoDup (map aj_name rows) ∧
    (name ≠ "" → ∀ n, n ∈ map aj_name rows ↔ is_Some (ia_jobs o !! n) ∧ occurs name n) ∧
    (name = "" → Z.of_nat (length rows) = Z.min (max_rows height) (Z.of_nat (size (ia_jobs o)))) ∧
    (∀ r, r ∈ js ++ rest → true_row o r) ∧
    (column sort → no_nan sort (js ++ rest) → StronglySorted (may_precede sort) (rows ++ if decide (name = "") then rest else [])).
Proof.
  cbn zeta. intros Hc Ho Hp Hh. destruct (thm_query sort name height Hh) as [Q1 Q2]. unfold handler_jobs. rewrite Q1, Q2, Ho.
  destruct (thm_filter_jobs srt o order sort (if decide (name = "") then max_rows height else 0) Hc Hp) as (js&rest&H1&H2&H3&H4&H5&H6).
  pose proof (max_rows_ge height) as [Hm _].
  exists js, rest. split; [done|]. destruct (kept_sub _ _ _ (thm_filter js name)) as [K1 K2].
  assert (Hsub : top_jobs js name `sublist_of` js ++ rest) by (etrans; [exact K1|by apply sublist_inserts_r]).
  split_and!.
  - intros r Hr. apply K2 in Hr as [Hr Hn]. split; [|done]. apply H2, elem_of_app. by left.
  - eapply nodup_sub; [by apply sublist_map, Hsub|done].
  - intros Hn n. destruct (decide (name = "")) as [|_] in H5; [done|]. rewrite decide_False in H5 by lia.
    assert (rest = []) as ->.
    { assert (Hl : length (js ++ rest) = size (ia_jobs o)).
      { rewrite <-(map_length aj_name). rewrite <-(size_dom (D := gset string)). rewrite <-(size_list_to_set (C := gset string) _ H3). apply set_size_proper.
        intros m. rewrite elem_of_list_to_set, <-H4, elem_of_dom. done. }
      rewrite app_length in Hl. destruct rest; [done|]. cbn in Hl. lia. }
    rewrite app_nil_r in *. rewrite H4. split.
    + intros (r&->&Hr)%elem_of_list_fmap. apply K2 in Hr as [Hr Ho']. split; [|done]. apply elem_of_list_fmap. eauto.
    + intros [(r&->&Hr)%elem_of_list_fmap Hoc]. apply elem_of_list_fmap. exists r. split; [done|]. by apply K2.
  - intros ->. destruct (decide ("" = "")) as [_|] in H5; [|done]. rewrite decide_True in H5 by lia. rewrite <-H5. done.
  - done.
  - intros C N. specialize (H6 C N). destruct (decide (name = "")) as [->|Hn]; [done|]. rewrite app_nil_r. by eapply sorted_sub.
Qed.

(** ** Cells *)
Lemma thm_cell n : in_int64 n → cell_text n (cell_nanos n).
Proof.
  intros Hn. unfold cell_text, cell_unit, cell_nanos.
  assert (Hq : ∀ d, 0 < d → 0 ≤ n → in_int64 (Z.quot n d) ∧ Z.quot n d * d ≤ n < (Z.quot n d + 1) * d).
  { intros d Hd H0. rewrite Z.quot_div_nonneg by lia. pose proof (Z.div_mod n d) as E. pose proof (Z.mod_pos_bound n d Hd). unfold in_int64 in *.
    assert (0 ≤ n / d) by (apply Z.div_pos; lia). assert (n / d ≤ n) by (apply Z.div_le_upper_bound; nia). split; [lia|nia]. }
  destruct (Z.ltb_spec 2000000 n).
  - rewrite !decide_False by lia. destruct (Hq 1000000) as [H1 H2]; [lia|lia|].
    exists (dec_int (Z.quot n 1000000)), (Z.quot n 1000000). split; [by apply dec_int_numeral|]. done.
  - destruct (Z.ltb_spec 1000 n).
    + rewrite decide_False, decide_True by lia. destruct (Hq 1000) as [H1 H2]; [lia|lia|].
      exists (dec_int (Z.quot n 1000)), (Z.quot n 1000). split; [by apply dec_int_numeral|]. done.
    + rewrite decide_True by lia. exists (dec_int n), n. split; [by apply dec_int_numeral|]. split; [done|]. cbn. lia.
Qed.
Lemma thm_host_cell h :
  ((host_cell h).2 = true ↔ hs_code h = 200 ∧ hs_err h = "") ∧
  ((host_cell h).2 = true → (host_cell h).1 = "Success") ∧
  ((host_cell h).2 = false → hs_check h = 0 → (host_cell h).1 = "Unknown") ∧
  ((host_cell h).2 = false → hs_check h ≠ 0 → (host_cell h).1 = "Failure: " +:+ hs_err h).
Proof.
  unfold host_cell. cbn. rewrite andb_true_iff, Z.eqb_eq, bool_decide_eq_true. split; [done|].
  split; [by intros [-> ->]|]. split; intros ->; [by intros ->|]. by intros H%Z.eqb_neq; rewrite H.
Qed.

(** ** healthd's command line *)
Lemma split_spec sep s : 
  s = String.concat (String sep "") (split_on sep s) ∧ split_on sep s ≠ [] ∧ Forall (free_of sep) (split_on sep s).
Proof.
  induction s as [|c s (E&Hn&Hf)]; cbn [split_on].
  - split; [done|]. split; [done|]. constructor; [by intros H%elem_of_nil|constructor].
  - destruct (Ascii.eqb_spec c sep) as [->|Hc].
    + destruct (split_on sep s) as [|x l]; [done|]. split; [|split; [done|]].
      * change (String.concat (String sep "") ("" :: x :: l)) with ("" +:+ String sep "" +:+ String.concat (String sep "") (x :: l)). rewrite <-E. done.
      * constructor; [by intros H%elem_of_nil|done].
    + destruct (split_on sep s) as [|x l]; [done|]. apply Forall_cons in Hf as [Hx Hl]. split; [|split; [done|]].
      * rewrite E at 1. by destruct l.
      * constructor; [|done]. unfold free_of. cbn. rewrite elem_of_cons. intros [->|H]; [done|]. by apply Hx.
Qed.
Lemma concat_free_inj sep l : ∀ l', l ≠ [] → l' ≠ [] → Forall (free_of sep) l → Forall (free_of sep) l' →
  String.concat (String sep "") l = String.concat (String sep "") l' → l = l'.
Proof.
  assert (G : ∀ a b u v, free_of sep a → free_of sep b → a +:+ String sep u = b +:+ String sep v → a = b ∧ u = v).
  { induction a as [|x a IH]; intros b u v Ha Hb E.
    - destruct b as [|y b]; [by injection E|]. change ("" +:+ String sep u) with (String sep u) in E. rewrite sapp_cons in E. injection E as -> _. exfalso. apply Hb. left.
    - destruct b as [|y b].
      + rewrite sapp_cons in E. change ("" +:+ String sep v) with (String sep v) in E. injection E as -> _. exfalso. apply Ha. left.
      + rewrite !sapp_cons in E. injection E as -> E. destruct (IH b u v) as [-> ->]; [| |done|done]; intros ?; [apply Ha|apply Hb]; by right. }
  assert (G2 : ∀ a b v, free_of sep a → a ≠ b +:+ String sep v).
  { intros a b v Ha ->. apply Ha. rewrite bytes_of_app. apply elem_of_app. right. left. }
  induction l as [|x l IH]; intros l' H1 H2 F1 F2 E; [done|]. destruct l' as [|y l']; [done|].
  apply Forall_cons in F1 as [Fx F1]. apply Forall_cons in F2 as [Fy F2].
  destruct l as [|x2 l], l' as [|y2 l'].
  - cbn in E. by subst.
  - exfalso. by apply (G2 x y (String.concat (String sep "") (y2 :: l'))).
  - exfalso. by apply (G2 y x (String.concat (String sep "") (x2 :: l))).
  - change (x +:+ String sep (String.concat (String sep "") (x2 :: l)) = y +:+ String sep (String.concat (String sep "") (y2 :: l'))) in E.
    apply G in E as [-> E]; [|done|done]. f_equal. by apply IH.
Qed.
Lemma thm_host_list monitored health :
  (healthd_hosts monitored health = None ↔ monitored = "") ∧
  (∀ l, l ≠ [] → Forall (free_of ",") l → monitored = String.concat "," l → monitored ≠ "" →
     healthd_hosts monitored health = Some (l ++ [if decide (health = "") then ":5030" else health])).
Proof.
  unfold healthd_hosts, monitored_host_ports, health_host_port. split.
  - destruct (decide (monitored = "")); cbn; [done|]. split; [done|by intros ->].
  - intros l Hn Hf E Hm. destruct (decide (monitored = "")) as [|_]; [done|]. cbn. do 2 f_equal.
    destruct (split_spec "," monitored) as (S1&S2&S3). apply (concat_free_inj ","); try done. by rewrite <-S1.
Qed.
Lemma thm_default_refuted : ¬ reaches top_default_source (server_host_port "").
Proof.
  intros (host&port&E1&E2&_). change (String ":" "5031" = String ":" port) in E2. injection E2 as <-.
  assert (bytes_of "localhost:5032" = bytes_of (host +:+ ":" +:+ "5031")) as E by (change "localhost:5032" with top_default_source; by rewrite E1).
  rewrite !bytes_of_app in E. apply (f_equal last) in E. rewrite app_assoc, last_app in E. cbn in E. discriminate E.
Qed.
Lemma thm_default_partial : reaches top_default_source ":5032".
Proof. exists "localhost", "5032". split; [done|]. split; [done|]. unfold free_of. apply (bool_decide_unpack _). by vm_compute. Qed.
