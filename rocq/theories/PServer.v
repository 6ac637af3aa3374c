(** * Proofs: a StatsD server gets what was emitted *)
From Coq Require Import Reals Lra.
From Verif Require Import SJson PJson MNum PNum SServer PStatsd PStatsd2 PWriter PStatsdLoop PStatsd3 PShort.

(** ** reading lines *)
Lemma count0_cons c x s : byte_count c (String x s) = 0%nat ↔ x ≠ c ∧ byte_count c s = 0%nat.
Proof. unfold byte_count. cbn [bytes_of]. rewrite filter_cons. case_decide; cbn; naive_solver. Qed.
Lemma cut_app c a b : byte_count c a = 0%nat → cut c (a +:+ String c b) = Some (a, b).
Proof.
  induction a as [|x a IH]; intros H.
  - change ("" +:+ String c b) with (String c b). cbn. by destruct (ascii_dec c c).
  - apply count0_cons in H as [Hx H]. rewrite sapp_cons. cbn. destruct (ascii_dec x c); [done|]. by rewrite IH.
Qed.
Lemma rows_one b : byte_count newline b = 0%nat → rows b = [b].
Proof.
  induction b as [|x b IH]; intros H; [done|]. apply count0_cons in H as [Hx H]. cbn [rows]. destruct (ascii_dec x newline); [done|]. by rewrite IH.
Qed.
Lemma rows_line b s : byte_count newline b = 0%nat → rows (b +:+ nl +:+ s) = b :: rows s.
Proof.
  induction b as [|x b IH]; intros H.
  - change ("" +:+ nl +:+ s) with (String newline s). cbn [rows]. by destruct (ascii_dec newline newline).
  - apply count0_cons in H as [Hx H]. rewrite sapp_cons. cbn [rows]. destruct (ascii_dec x newline); [done|]. by rewrite IH.
Qed.

Definition row_ok (m : metric) : Prop := plain_text (m_name m) ∧ plain_text (m_value m) ∧ plain_text (m_type m).
Definition row (m : metric) : string := m_name m +:+ ":" +:+ m_value m +:+ "|" +:+ m_type m.
Lemma read_row_row m : row_ok m → read_row (row m) = Some m.
Proof.
  destruct m as [n v t]. intros ((N & _) & (_ & V & _) & _). unfold read_row, row. cbn [m_name m_value m_type] in *.
  change (":" +:+ v +:+ "|" +:+ t) with (String ":" (v +:+ "|" +:+ t)). rewrite cut_app by done. cbn.
  change ("|" +:+ t) with (String "|" t). by rewrite cut_app.
Qed.
Lemma row_plain m : row_ok m → byte_count newline (row m) = 0%nat.
Proof.
  intros ((_ & _ & N) & (_ & _ & V) & (_ & _ & T)). unfold row. rewrite !byte_count_app, N, V, T. done.
Qed.
Lemma rows_group g : Forall row_ok g → omap read_row (rows (str_concat (map (λ m, row m +:+ nl) g))) = g.
Proof.
  induction g as [|m g IH]; intros H; [done|]. apply Forall_cons in H as [Hm Hg]. cbn [map str_concat]. rewrite sapp_assoc, rows_line by (by apply row_plain). cbn. rewrite read_row_row by done. cbn. f_equal. by apply IH.
Qed.

(** ** the metrics of a command *)
Definition both_m (o : opts) (job event suffix value ty : string) : list metric := map (λ n, Metric n value ty) (names_of o job event suffix).
Definition metrics_of (o : opts) (c : cmd) : list metric :=
  match c with
  | CEvent j e => both_m o j e "" "1" "c"
  | CEventErr j e _ => both_m o j e "error" "1" "c"
  | CTiming j e n => both_m o j e "" (nanos_text n) "ms"
  | CGauge j e v => both_m o j e "" (gauge_text o v) "g"
  | CComplete j st n => [Metric (metric_name o [j; status_string st]) (nanos_text n) "ms"]
  end.
Definition emits (o : opts) (l : list cmd) : list metric := concat (map (metrics_of o) l).
Lemma line_row o parts v ty : line o parts v ty = row (Metric (metric_name o parts) v ty) +:+ nl.
Proof. unfold line, row. cbn [m_name m_value m_type]. by rewrite !sapp_assoc. Qed.
Lemma both_rows o j e x v ty : both o j e x v ty = map (λ m, row m +:+ nl) (both_m o j e x v ty).
Proof. unfold both, both_m, names_of. rewrite !map_app. f_equal; [destruct (o_skip_top o)|destruct (o_skip_nested o)]; cbn [map]; by rewrite ?line_row. Qed.
Lemma lines_rows o c : lines_of o c = map (λ m, row m +:+ nl) (metrics_of o c).
Proof. destruct c; cbn [lines_of metrics_of]; try apply both_rows. cbn [map]. by rewrite line_row. Qed.
Lemma emits_rows o l : concat (map (lines_of o) l) = map (λ m, row m +:+ nl) (emits o l).
Proof. unfold emits. rewrite concat_map, map_map. f_equal. apply map_ext. intros c. apply lines_rows. Qed.
Lemma metric_name_plain o parts : (∀ k, plain_text (o_san o k)) → plain_text (metric_name o parts).
Proof.
  intros H. unfold metric_name. induction (filter _ _) as [|x l IH]; [done|]. cbn [map]. rewrite join_alt. apply plain_app; [done|].
  clear IH. induction l as [|y l IH]; [done|]. cbn [map str_concat]. apply plain_app; [|done]. apply plain_app; [done|apply H].
Qed.
Lemma metrics_ok o c : clean o → Forall row_ok (metrics_of o c).
Proof.
  intros [Hs Hv]. assert (∀ j e x v ty, plain_text v → plain_text ty → Forall row_ok (both_m o j e x v ty)) as B.
  { intros j e x v ty H1 H2. unfold both_m, names_of. rewrite map_app. apply Forall_app.
    assert (∀ parts, row_ok (Metric (metric_name o parts) v ty)) as R by (intros parts; split; [by apply metric_name_plain|done]).
    split; [destruct (o_skip_top o)|destruct (o_skip_nested o)]; cbn [map]; first [apply Forall_nil; done|apply Forall_singleton, R]. }
  destruct c; cbn [metrics_of]; try (apply B; [done|done]).
  - apply B; [apply nanos_text_plain|done].
  - apply B; [by apply gauge_text_plain|done].
  - constructor; [|constructor]. split; [by apply metric_name_plain|]. split; [apply nanos_text_plain|]. cbn. done.
Qed.
Lemma emits_ok o l : clean o → Forall row_ok (emits o l).
Proof. intros H. unfold emits. induction l as [|c l IH]; [constructor|]. cbn. apply Forall_app. split; [by apply metrics_ok|done]. Qed.

Lemma regroup {A B} (f : A → B) groups : ∀ ms, concat groups = map f ms → ∃ mgs, groups = map (map f) mgs ∧ concat mgs = ms.
Proof.
  induction groups as [|g groups IH]; intros ms H.
  - exists []. split; [done|]. by destruct ms.
  - cbn in H. symmetry in H. apply map_eq_app in H as (m1 & m2 & -> & H1 & H2). destruct (IH m2 (eq_sym H2)) as (mgs & -> & <-).
    exists (m1 :: mgs). split; [|done]. cbn. by rewrite H1.
Qed.
Lemma server_gets o l sent : clean o → all_fit o l → packed sent "" (sendable o l) → metrics sent = emits o l.
Proof.
  intros Hc Hf (groups & pending & -> & Hp & Hl).
  assert (sendable o l = concat (map (lines_of o) l)) as Hs.
  { unfold sendable. unfold all_fit in Hf. revert Hf. generalize (concat (map (lines_of o) l)). intros ls H. induction H as [|x ls Hx _ IH]; [done|].
    rewrite filter_cons, decide_True by done. by rewrite IH. }
  rewrite Hs, emits_rows in Hl. pose proof (emits_ok o l Hc) as Hok.
  assert (pending = []) as ->.
  { destruct pending as [|x pending]; [done|]. exfalso.
    assert (x ∈ map (λ m, row m +:+ nl) (emits o l)) as Hx by (rewrite Hl; apply elem_of_app; right; left).
    apply elem_of_list_fmap in Hx as (m & -> & _). cbn in Hp. apply (f_equal String.length) in Hp. rewrite !app_length_s in Hp. cbn in Hp. lia. }
  rewrite app_nil_r in Hl. symmetry in Hl. apply regroup in Hl as (mgs & -> & Hm). rewrite <- Hm in *. clear Hm Hs Hp.
  unfold metrics. rewrite !map_map. induction mgs as [|g mgs IH]; [done|]. cbn [map concat] in *. apply Forall_app in Hok as [Hg Hok].
  rewrite omap_app, rows_group, IH by done. done.
Qed.

(** ** by name *)
Lemma values_app ty name ds l1 l2 : metrics ds = l1 ++ l2 → values ty name ds =
  omap (λ m, if decide (m_type m = ty ∧ m_name m = name) then Some (m_value m) else None) l1 ++
  omap (λ m, if decide (m_type m = ty ∧ m_name m = name) then Some (m_value m) else None) l2.
Proof. intros H. unfold values. by rewrite H, omap_app. Qed.
Definition pick (ty name : string) (l : list metric) : list string :=
  omap (λ m, if decide (m_type m = ty ∧ m_name m = name) then Some (m_value m) else None) l.
Lemma pick_both ty name o j e x v ty' :
  pick ty name (both_m o j e x v ty') = if decide (ty' = ty) then each name (names_of o j e x) v else [].
Proof.
  unfold both_m, each. induction (names_of o j e x) as [|n l IH]; [by destruct (decide _)|]. cbn [map pick omap list_omap m_type m_name m_value].
  unfold pick in IH. rewrite filter_cons. destruct (decide (ty' = ty)) as [->|]; destruct (decide (n = name)) as [->|].
  - rewrite decide_True by done. cbn. by rewrite <- IH.
  - rewrite decide_False by naive_solver. done.
  - rewrite decide_False by naive_solver. done.
  - rewrite decide_False by naive_solver. done.
Qed.
Lemma pick_one ty name n v ty' : pick ty name [Metric n v ty'] = if decide (ty' = ty) then each name [n] v else [].
Proof.
  unfold pick, each. cbn. destruct (decide (ty' = ty)) as [->|], (decide (n = name)) as [->|]; cbn.
  - by rewrite !decide_True by done.
  - by rewrite !decide_False by naive_solver.
  - by rewrite !decide_False by naive_solver.
  - by rewrite !decide_False by naive_solver.
Qed.
Lemma pick_app ty name l1 l2 : pick ty name (l1 ++ l2) = pick ty name l1 ++ pick ty name l2.
Proof. apply omap_app. Qed.
Lemma each_length {A} name names (a : A) : length (each name names a) = length (each name names ()).
Proof. unfold each. by rewrite !map_length. Qed.

Lemma counter_emits o name l :
  foldr Z.add 0 (omap (λ v, match read_num v with Some (n, 1) => Some n | _ => None end) (pick "c" name (emits o l))) = counts o name l.
Proof.
  unfold counts, emits. induction l as [|c l IH]; [done|]. cbn [map concat]. rewrite pick_app, omap_app, foldr_app, app_length, Nat2Z.inj_add, <- IH.
  clear IH. generalize (foldr Z.add 0 (omap (λ v, match read_num v with Some (n, 1) => Some n | _ => None end) (pick "c" name (concat (map (metrics_of o) l))))). intros z.
  assert (∀ k : list string, foldr Z.add z (omap (λ v, match read_num v with Some (n, 1) => Some n | _ => None end) (map (λ _, "1") k)) = Z.of_nat (length k) + z) as R.
  { induction k as [|x k IH]; [done|]. cbn [map omap list_omap length]. change (read_num "1") with (Some (1, 1)). cbn. rewrite IH. lia. }
  destruct c; cbn [metrics_of]; rewrite ?pick_both, ?pick_one.
  - rewrite decide_True by done. unfold each. rewrite map_length. apply R.
  - rewrite decide_True by done. unfold each. rewrite map_length. apply R.
  - by rewrite decide_False by done.
  - by rewrite decide_False by done.
  - by rewrite decide_False by done.
Qed.
Lemma thm_counter o name l sent : clean o → all_fit o l → packed sent "" (sendable o l) → counter name sent = counts o name l.
Proof. intros Hc Hf Hp. unfold counter, values. rewrite (server_gets o l sent) by done. apply counter_emits. Qed.

Lemma ms_text n : in_int64 n → ms_of (nanos_text n) n.
Proof.
  intros H. destruct (thm_nanos_number n H) as [x Hx]. exists x. split; [done|]. destruct (thm_nanos_error n x H Hx) as (E1 & _ & E3). done.
Qed.
Lemma thm_timings o name l sent : clean o → all_fit o l → fine l → packed sent "" (sendable o l) →
  Forall2 ms_of (timings name sent) (durations o name l).
Proof.
  intros Hc Hf Hn Hp. unfold timings, values. rewrite (server_gets o l sent) by done. change (omap _ (emits o l)) with (pick "ms" name (emits o l)).
  clear -Hn. unfold emits, durations. induction Hn as [|c l Hc Hl IH]; [constructor|]. cbn [map concat]. rewrite pick_app. apply Forall2_app; [|done].
  assert (∀ k n, in_int64 n → Forall2 ms_of (each name k (nanos_text n)) (each name k n)) as E.
  { intros k n H. unfold each. induction (filter _ k) as [|x k' IHk]; [constructor|]. constructor; [by apply ms_text|done]. }
  destruct c; cbn [metrics_of]; rewrite ?pick_both, ?pick_one.
  - by rewrite decide_False by done.
  - by rewrite decide_False by done.
  - rewrite decide_True by done. by apply E.
  - by rewrite decide_False by done.
  - rewrite decide_True by done. by apply E.
Qed.
Lemma gauges_emits o name l : pick "g" name (emits o l) = map (gauge_text o) (gauged o name l).
Proof.
  unfold emits, gauged. induction l as [|c l IH]; [done|]. cbn [map concat]. rewrite pick_app, map_app, IH. f_equal.
  destruct c; cbn [metrics_of]; rewrite ?pick_both, ?pick_one; try by rewrite decide_False by done.
  rewrite decide_True by done. unfold each. by rewrite map_map.
Qed.

(** ** gauges *)
Lemma nearest_sign num den v : nearest true num den = Some v → ¬ unsigned v.
Proof.
  unfold nearest. destruct (num =? 0); [by intros [= <-]|]. destruct (if _ =? 2 ^ 53 then _ else _) as [m k]. destruct (971 <? k); [done|].
  by destruct m; intros [= <-].
Qed.
Lemma short_unsigned t v q : read_num t = Some q → parse_float t = Some v → unsigned v → signed t = false.
Proof.
  intros Hr Hp Hv. destruct t as [|c t]; [done|]. unfold signed. rewrite bool_decide_false; [done|]. intros [-> | ->].
  - change (read_num ("-" +:+ t) = Some q) in Hr. rewrite read_num_neg in Hr. destruct (read_digits t) as [[n d]|] eqn:E; [|done].
    destruct (read_digits_parse true _ _ _ E) as (_ & _ & P). change (parse_float (String "-" t) = nearest true n d) in P.
    rewrite Hp in P. by apply (nearest_sign n d v).
  - done.
Qed.
Lemma dec_point_unsigned n k : signed (dec_point n k) = false.
Proof.
  unfold dec_point. destruct (dec_nat_head (n / 10 ^ Z.of_nat k)) as (d & t & Hd & ->). rewrite sapp_cons. cbn [signed]. rewrite bool_decide_false; [done|].
  assert (d = 0 ∨ d = 1 ∨ d = 2 ∨ d = 3 ∨ d = 4 ∨ d = 5 ∨ d = 6 ∨ d = 7 ∨ d = 8 ∨ d = 9) as H by lia.
  repeat (destruct H as [->|H] || subst d); vm_compute; naive_solver.
Qed.
Lemma gauge_unsigned o v x : short_codec (o_short o) → valid_binary 53 1024 v = true → unsigned v → denotes (gauge_text o v) x → signed (gauge_text o v) = false.
Proof.
  intros Hs Hv Hp _. unfold gauge_text. destruct (_ && _).
  - destruct (Hs v Hv) as [[q Hr] P]; [by destruct v|]. by eapply short_unsigned.
  - destruct v as [s| | |s m e]; try done; cbn in Hp; subst s; cbn [fmt_fixed].
    + apply dec_point_unsigned.
    + apply dec_point_unsigned.
Qed.
Lemma thm_gauge o name l vs v sent : clean o → short_codec (o_short o) → all_fit o l → packed sent "" (sendable o l) →
  gauged o name l = vs ++ [v] → valid_binary 53 1024 v = true → unsigned v →
  ∃ n d, gauge name sent = (n, d) ∧ 0 < d ∧ (Rabs (IZR n / IZR d - fval v) <= 0.005)%R.
Proof.
  intros Hc Hs Hf Hp Hg Hv Hpos. unfold gauge, values. rewrite (server_gets o l sent) by done.
  change (omap _ (emits o l)) with (pick "g" name (emits o l)). rewrite gauges_emits, Hg, map_app, foldl_app. cbn [map foldl].
  destruct (thm_gauge_text_all o v Hs Hv) as (x & (n & d & Hr & Hd & ->) & He); [by destruct v|].
  exists n, d. split; [|done]. unfold gauge_step at 1. rewrite Hr.
  by rewrite (gauge_unsigned o v (IZR n / IZR d)%R Hs Hv Hpos) by (by exists n, d).
Qed.

(** ** after a Drain *)
Lemma counts_app o name l1 l2 : counts o name (l1 ++ l2) = counts o name l1 + counts o name l2.
Proof. unfold counts. rewrite map_app, concat_app, app_length. lia. Qed.
Lemma counts_nonneg o name l : 0 ≤ counts o name l.
Proof. unfold counts. lia. Qed.
Lemma thm_drained o name before all s : clean o → all_fit o (accepted all) → accepted before `prefix_of` accepted all → delivered o before all s →
  counts o name (accepted before) ≤ counter name (sd_sent (l_sd s)) ≤ counts o name (accepted all).
Proof.
  intros Hc Hf [rest Hpre] (n & H1 & H2 & _ & H4).
  rewrite (thm_counter o name (take n (accepted all)) _ Hc) by (try done; unfold all_fit in *; rewrite <- (take_drop n (accepted all)), map_app, concat_app in Hf; by apply Forall_app in Hf as [? _]).
  split.
  - rewrite Hpre, take_app_ge by done. rewrite counts_app. pose proof (counts_nonneg o name (take (n - length (accepted before)) rest)). lia.
  - rewrite <- (take_drop n (accepted all)) at 2. rewrite counts_app. pose proof (counts_nonneg o name (drop n (accepted all))). lia.
Qed.

(** ** the defaults are clean *)
Lemma number_plain t : number_text t → plain_text t.
Proof.
  intros (sg & ip & fp & ep & -> & Hsg & Hip & Hfp & Hep).
  assert (∀ d, dstr d → plain_text d) as D.
  { intros d. induction d as [|c d IH]; intros H; [done|]. unfold dstr in H. cbn in H. apply Forall_cons in H as [Hc Hd].
    change (String c d) with (String c "" +:+ d). apply plain_app; [|by apply IH]. cbn in Hc.
    repeat (apply elem_of_cons in Hc as [->|Hc]; [by vm_compute|]). by apply elem_of_nil in Hc. }
  apply plain_app; [|apply plain_app; [|apply plain_app]].
  - apply elem_of_cons in Hsg as [->|Hsg]; [done|]. by apply elem_of_list_singleton in Hsg as ->.
  - apply D. by apply int_part_dstr.
  - destruct Hfp as [->|(d & -> & _ & Hd)]; [done|]. apply plain_app; [done|by apply D].
  - destruct Hep as [->|(e & sg' & d & -> & He & Hs & _ & Hd)]; [done|]. apply plain_app; [|apply plain_app; [|by apply D]].
    + apply elem_of_cons in He as [->|He]; [done|]. by apply elem_of_list_singleton in He as ->.
    + repeat (apply elem_of_cons in Hs as [->|Hs]; [done|]). by apply elem_of_nil in Hs.
Qed.
Lemma go_short_plain v : plain_text (go_short v).
Proof.
  destruct v as [s|s| |s m e]; try done; [by destruct s|]. cbn [go_short].
  assert (∀ l last, plain_text last → plain_text (first_short (S754_finite s m e) l last)) as G.
  { intros l last Hl. induction l as [|t l IH]; [done|]. cbn [first_short]. destruct (_ && _) eqn:E; [|done].
    apply andb_true_iff in E as [E _]. apply read_back_ok in E as [E _]. by apply number_plain. }
  apply G. apply plain_app; [by destruct s|]. destruct (0 <=? e); [apply dec_nat_plain|apply dec_point_plain].
Qed.
Lemma thm_clean p a b : clean (Opts p sanitize_key a b go_short).
Proof. split; [intros k; apply name_plain, sanitize_key_ok|apply go_short_plain]. Qed.
