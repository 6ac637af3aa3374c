(** * Proofs about the StatsD sink's goroutine-local code *)
From Verif Require Import SStatsd.

Lemma app_cons_s x (a b : string) : String x a +:+ b = String x (a +:+ b).
Proof. done. Qed.
Lemma app_assoc_s (a b c : string) : (a +:+ b) +:+ c = a +:+ (b +:+ c).
Proof. induction a as [|x a IH]; [done|]. by rewrite !app_cons_s, IH. Qed.
Lemma app_nil_s (a : string) : a +:+ "" = a.
Proof. induction a as [|x a IH]; [done|]. by rewrite !app_cons_s, IH. Qed.
Lemma app_nil_l_s (a : string) : "" +:+ a = a.
Proof. done. Qed.
Lemma app_length_s (a b : string) : String.length (a +:+ b) = (String.length a + String.length b)%nat.
Proof. induction a as [|x a IH]; [done|]. rewrite !app_cons_s. simpl. by rewrite IH. Qed.
Lemma zlen_app a b : zlen (a +:+ b) = zlen a + zlen b.
Proof. unfold zlen. rewrite app_length_s. lia. Qed.
Lemma zlen_nonneg a : 0 ≤ zlen a.
Proof. unfold zlen. lia. Qed.
Lemma zlen_0 a : zlen a = 0 → a = "".
Proof. destruct a; [done|]. unfold zlen. simpl. lia. Qed.
Lemma str_concat_app a b : str_concat (a ++ b) = str_concat a +:+ str_concat b.
Proof. induction a as [|x a IH]; simpl; [done|]. by rewrite IH, app_assoc_s. Qed.
Lemma substring_prefix a b : String.substring 0 (String.length a) (a +:+ b) = a.
Proof. induction a as [|x a IH]; [by destruct b|]. rewrite app_cons_s. cbn [String.length substring]. by rewrite IH. Qed.

(** writeSanitizedKeys is the dot-join *)
Lemma concat_cons_s sep x l : l ≠ [] → String.concat sep (x :: l) = x +:+ sep +:+ String.concat sep l.
Proof. destruct l; [done|]. done. Qed.

Definition keyfold (o : opts) := (λ '(b, need_dot) (k : string),
         if bool_decide (k ≠ "") then
           ((if need_dot : bool then b +:+ "." else b) +:+ o_san o k, true)
         else (b, need_dot)).

Lemma keyfold_true o keys : ∀ b,
  fst (fold_left (keyfold o) keys (b, true)) =
  b +:+ str_concat (map (λ k, "." +:+ o_san o k) (filter (λ p, p ≠ "") keys)).
Proof.
  induction keys as [|k keys IH]; intros b; simpl; [by rewrite app_nil_s|].
  rewrite filter_cons. case_bool_decide; case_decide; try done.
  - rewrite IH. cbn [map str_concat]. by rewrite !app_assoc_s.
Qed.
Lemma join_alt (l : list string) x :
  String.concat "." (x :: l) = x +:+ str_concat (map (λ s, "." +:+ s) l).
Proof.
  revert x; induction l as [|y l IH]; intros x; [simpl; by rewrite app_nil_s|].
  rewrite concat_cons_s by done. rewrite IH. simpl. done.
Qed.
Lemma keyfold_false o keys : ∀ b,
  fst (fold_left (keyfold o) keys (b, false)) =
  b +:+ String.concat "." (map (o_san o) (filter (λ p, p ≠ "") keys)).
Proof.
  induction keys as [|k keys IH]; intros b; simpl; [by rewrite app_nil_s|].
  rewrite filter_cons. case_bool_decide; case_decide; try done.
  rewrite keyfold_true. cbn [map]. rewrite join_alt, map_map, !app_assoc_s. done.
Qed.

Definition key_prefix (o : opts) (k : skey) : string :=
  metric_name o [k.1.1; k.1.2; k.2] +:+ ":".

Lemma write_keys_eq o j e x :
  write_sanitized_keys o "" [o_prefix o; j; e; x] +:+ ":" = key_prefix o (j, e, x).
Proof. unfold write_sanitized_keys, key_prefix, metric_name. cbn [fst snd]. f_equal. apply (keyfold_false o _ ""). Qed.

Definition cache_ok (o : opts) (s : sd) : Prop :=
  ∀ k b, sd_cache s !! k = Some b →
    pb_len b = String.length (key_prefix o k) ∧ ∃ t, pb_bytes b = key_prefix o k +:+ t.

Lemma fold_write_cache s k : ∀ texts c n,
  sd_cache s !! k = Some (PBuf c n) →
  ∃ s', fold_left (λ s t, pb_write s k t) texts s = s' ∧
    sd_cache s' = <[k := PBuf (c +:+ str_concat texts) n]> (sd_cache s) ∧
    sd_udp s' = sd_udp s ∧ sd_sent s' = sd_sent s ∧ sd_timing s' = sd_timing s.
Proof.
  intros texts; revert s; induction texts as [|t texts IH]; intros s c n Hk; simpl.
  - exists s. rewrite app_nil_s, insert_id; auto.
  - destruct (IH (pb_write s k t) (c +:+ t) n) as (s' & -> & Hc & Hu & Hs & Ht).
    { unfold pb_write. simpl. rewrite lookup_alter, Hk. done. }
    exists s'. rewrite Hc, Hu, Hs, Ht. split_and!; try done.
    unfold pb_write; simpl. rewrite app_assoc_s.
    apply map_eq; intros k'. destruct (decide (k = k')) as [->|].
    + by rewrite !lookup_insert.
    + rewrite !lookup_insert_ne, lookup_alter_ne by done. done.
Qed.

Lemma write_line_ok o s k texts :
  cache_ok o s →
  ∃ s', write_line o s k texts = Ok s' ∧ cache_ok o s' ∧ sd_timing s' = sd_timing s ∧
    (sd_udp s', sd_sent s') =
    (let w := write_metric s (key_prefix o k +:+ str_concat texts) in (sd_udp w, sd_sent w)).
Proof.
  intros Hok. unfold write_line.
  assert (∃ s1, get_prefix_buffer o s k = Ok s1 ∧
     sd_cache s1 = <[k := PBuf (key_prefix o k) (String.length (key_prefix o k))]> (sd_cache s) ∧
     sd_udp s1 = sd_udp s ∧ sd_sent s1 = sd_sent s ∧ sd_timing s1 = sd_timing s) as (s1 & -> & Hc & Hu & Hs & Ht).
  { destruct k as [[j e] x]. unfold get_prefix_buffer.
    destruct (sd_cache s !! (j, e, x)) as [b|] eqn:Hk.
    - destruct (Hok _ _ Hk) as (Hl & t & Hb). rewrite Hl, Hb. unfold buf_truncate.
      rewrite app_length_s. case_match eqn:E.
      + rewrite substring_prefix. eexists; split; [done|]. done.
      + apply Nat.leb_gt in E. lia.
    - rewrite write_keys_eq. eexists; split; [done|]. done. }
  cbn [rbind].
  destruct (fold_write_cache s1 k texts (key_prefix o k) (String.length (key_prefix o k))) as (s2 & E & Hc2 & Hu2 & Hs2 & Ht2).
  { rewrite Hc. apply lookup_insert. }
  rewrite E. eexists; split; [done|].
  assert (pb_read s2 k = key_prefix o k +:+ str_concat texts) as ->.
  { unfold pb_read. by rewrite Hc2, lookup_insert. }
  assert (cache_ok o s2) as Hok2.
  { intros k' b. rewrite Hc2, Hc, insert_insert. destruct (decide (k = k')) as [->|].
    - rewrite lookup_insert. intros [= <-]. simpl. eauto.
    - rewrite lookup_insert_ne by done. apply Hok. }
  rewrite <-Ht, <-Ht2.
  unfold write_metric, sd_send. simpl. rewrite Hu2, Hs2, Hu, Hs.
  repeat case_match; simpl; split_and!; auto; try congruence.
Qed.

(** one line at a time *)
Definition put_lines (s : sd) (ls : list string) : sd := fold_left write_metric ls s.

Definition same_out (s1 s2 : sd) : Prop := sd_udp s1 = sd_udp s2 ∧ sd_sent s1 = sd_sent s2.
Lemma write_metric_same s1 s2 b : same_out s1 s2 → same_out (write_metric s1 b) (write_metric s2 b).
Proof. intros [H1 H2]. unfold write_metric, sd_send, same_out. rewrite H1. repeat case_match; simpl; split; congruence. Qed.

Lemma same_out_trans a b c : same_out a b → same_out b c → same_out a c.
Proof. unfold same_out. intros [-> ->] [-> ->]. done. Qed.
Lemma put_lines_same ls : ∀ a b, same_out a b → same_out (put_lines a ls) (put_lines b ls).
Proof. induction ls; simpl; intros; [done|]. apply IHls, write_metric_same; done. Qed.

Lemma line_eq o j e x v ty :
  key_prefix o (j, e, x) +:+ str_concat [v; ("|" +:+ ty) +:+ nl] = line o [j; e; x] v ty.
Proof. unfold key_prefix, line. cbn [fst snd str_concat]. rewrite !app_nil_s, !app_assoc_s. done. Qed.
Lemma line_eq1 o j e x :
  key_prefix o (j, e, x) +:+ str_concat ["1|c" +:+ nl] = line o [j; e; x] "1" "c".
Proof. unfold key_prefix, line. cbn [fst snd str_concat]. rewrite !app_nil_s, !app_assoc_s. done. Qed.

Lemma filter_empty_skip (o : opts) l1 l2 : metric_name o (l1 ++ "" :: l2) = metric_name o (l1 ++ l2).
Proof. unfold metric_name. rewrite !filter_cons. rewrite !filter_app, filter_cons. done. Qed.
Lemma line_skip o l1 l2 v ty : line o (l1 ++ "" :: l2) v ty = line o (l1 ++ l2) v ty.
Proof. unfold line. by rewrite filter_empty_skip. Qed.

Lemma process_cmd_ok o s c :
  cache_ok o s →
  ∃ s', process_cmd o s (SMetric c) = Ok s' ∧ cache_ok o s' ∧ same_out s' (put_lines s (lines_of o c)).
Proof.
  intros Hok.
  assert (∀ s k texts L, cache_ok o s → key_prefix o k +:+ str_concat texts = L →
    ∃ s', write_line o s k texts = Ok s' ∧ cache_ok o s' ∧ sd_timing s' = sd_timing s ∧ same_out s' (write_metric s L)) as W.
  { intros s0 k t L H <-. destruct (write_line_ok o s0 k t H) as (s' & ? & ? & ? & E). injection E as ? ?.
    exists s'. done. }
  assert (∀ s j e x v ty t, cache_ok o s →
    (∀ j', key_prefix o (j', e, x) +:+ str_concat t = line o [j'; e; x] v ty) →
    ∃ s', (s ←r (if o_skip_top o then Ok s else write_line o s ("", e, x) t);
           if o_skip_nested o then Ok s else write_line o s (j, e, x) t) = Ok s' ∧ cache_ok o s' ∧
          same_out s' (put_lines s (both o j e x v ty))) as B.
  { clear s Hok. intros s j e x v ty t Hok Ht. unfold both.
    assert (∃ s1, (if o_skip_top o then Ok s else write_line o s ("", e, x) t) = Ok s1 ∧ cache_ok o s1 ∧
       same_out s1 (put_lines s (if o_skip_top o then [] else [line o [e; x] v ty]))) as (s1 & -> & Hok1 & HS1).
    { destruct (o_skip_top o).
      - exists s. done.
      - destruct (W s ("", e, x) t _ Hok (Ht "")) as (s' & ? & ? & ? & ?).
        exists s'. split_and!; [done..|]. simpl. rewrite <-(line_skip o [] [e; x]). done. }
    cbn [rbind]. unfold put_lines. rewrite fold_left_app.
    destruct (o_skip_nested o).
    - exists s1. done.
    - destruct (W s1 (j, e, x) t _ Hok1 (Ht j)) as (s' & ? & ? & ? & [? ?]).
      exists s'. split_and!; [done..|]. simpl.
      destruct (write_metric_same _ _ (line o [j; e; x] v ty) HS1) as [E1 E2].
      unfold put_lines in *. split; etrans; eauto. }
  destruct c as [j e|j e er|j e n|j e v|j st n]; simpl.
  - apply B; [done|]. intros. apply line_eq1.
  - apply B; [done|]. intros. apply line_eq1.
  - destruct (B (with_timing s (nanos_text n)) j e "" (nanos_text n) "ms" [nanos_text n; "|ms" +:+ nl])
      as (s' & E & ? & HS); [done|intros; apply line_eq|].
    exists s'. split_and!; [|done|].
    + unfold process_timing. simpl in *. rewrite <-E.
      destruct (o_skip_top o); [done|].
      destruct (W (with_timing s (nanos_text n)) ("", e, "") [nanos_text n; "|ms" +:+ nl] _ Hok eq_refl) as (s1 & E1 & _ & Ht & _).
      rewrite E1. cbn [rbind]. by rewrite Ht.
    + eapply same_out_trans; [exact HS|]. by apply put_lines_same.
  - destruct (B (with_timing s (gauge_text o v)) j e "" (gauge_text o v) "g" [gauge_text o v; "|g" +:+ nl])
      as (s' & E & ? & HS); [done|intros; apply line_eq|].
    exists s'. split_and!; [|done|].
    + unfold process_gauge. simpl in *. rewrite <-E.
      destruct (o_skip_top o); [done|].
      destruct (W (with_timing s (gauge_text o v)) ("", e, "") [gauge_text o v; "|g" +:+ nl] _ Hok eq_refl) as (s1 & E1 & _ & Ht & _).
      rewrite E1. cbn [rbind]. by rewrite Ht.
    + eapply same_out_trans; [exact HS|]. by apply put_lines_same.
  - unfold process_complete.
    destruct (W (with_timing s (nanos_text n)) (j, "", status_string st) [nanos_text n; "|ms" +:+ nl] _ Hok (line_eq _ _ _ _ _ _))
      as (s' & ? & ? & ? & HS).
    exists s'. split_and!; [done..|]. eapply same_out_trans; [exact HS|].
    rewrite <-(line_skip o [j] [status_string st]). apply write_metric_same. done.
Qed.

(** packing *)
Definition sent_ok (s : sd) (ls : list string) : Prop :=
  packed (sd_sent s) (sd_udp s) (filter (λ b, zlen b ≤ 1440) ls) ∧
  zlen (sd_udp s) ≤ 1440 ∧ (∀ d, d ∈ sd_sent s → 1 ≤ zlen d ≤ 1440).

Lemma packed_send s ls : packed (sd_sent s) (sd_udp s) ls → packed (sd_sent (sd_send s)) (sd_udp (sd_send s)) ls.
Proof.
  intros (g & p & H1 & H2 & H3). exists (g ++ [p]), []. simpl.
  rewrite map_app, H1, H2, H3, concat_app. simpl. rewrite !app_nil_r. done.
Qed.
Lemma send_ok s ls : sent_ok s ls → sd_udp s ≠ "" → sent_ok (sd_send s) ls.
Proof.
  intros (H1 & H2 & H3) Hne. split_and!.
  - by apply packed_send.
  - done.
  - intros d. simpl. rewrite elem_of_app, elem_of_list_singleton. intros [?|Hd]; [auto|]. subst d.
    pose proof (zlen_nonneg (sd_udp s)). assert (zlen (sd_udp s) ≠ 0) by (by intros ?%zlen_0). lia.
Qed.
Lemma flush_ok s ls : sent_ok s ls → sent_ok (sd_flush s) ls.
Proof.
  intros H. unfold sd_flush. case_match eqn:E; [|done]. apply send_ok; [done|].
  intros Hz. rewrite Hz in E. done.
Qed.
Lemma write_metric_ok s ls b : b ≠ "" → sent_ok s ls → sent_ok (write_metric s b) (ls ++ [b]).
Proof.
  intros Hb (HP & HL & HS). unfold write_metric, maxUdpBytes.
  pose proof (zlen_nonneg b) as Hnn. assert (zlen b ≠ 0) as Hb0 by (by intros ?%zlen_0).
  destruct (zlen b =? 0) eqn:E0; [lia|]. clear E0.
  destruct (1440 <? zlen b) eqn:E1.
  { unfold sent_ok. rewrite filter_app, filter_cons, decide_False by lia. simpl. rewrite app_nil_r. done. }
  set (s1 := if 1440 <? zlen b + zlen (sd_udp s) then sd_send s else s).
  assert (sent_ok s1 ls ∧ zlen (sd_udp s1) + zlen b ≤ 1440) as [(HP1 & HL1 & HS1) HF].
  { subst s1. destruct (1440 <? zlen b + zlen (sd_udp s)) eqn:E2.
    - split; [|simpl; unfold zlen at 1; simpl; lia]. apply send_ok; [done|]. intros Hz. rewrite Hz in E2. change (zlen "") with 0 in E2. lia.
    - split; [done|lia]. }
  split_and!; simpl; [|rewrite zlen_app; lia|done].
  rewrite filter_app, filter_cons, decide_True by lia. rewrite filter_nil.
  destruct HP1 as (g & p & H1 & H2 & H3). exists g, (p ++ [b]).
  rewrite str_concat_app. simpl. rewrite app_nil_s, H2. split_and!; [done..|]. by rewrite H3, app_assoc.
Qed.
Lemma line_nonempty o parts v ty : line o parts v ty ≠ "".
Proof. unfold line. intros H. apply (f_equal String.length) in H. rewrite !app_length_s in H. simpl in H. lia. Qed.
Lemma lines_nonempty o c l : l ∈ lines_of o c → l ≠ "".
Proof.
  assert (∀ j e x v ty, l ∈ both o j e x v ty → l ≠ "") as B.
  { intros j e x v ty. unfold both. rewrite elem_of_app. intros [H|H];
    repeat case_match; apply elem_of_list_In in H; simpl in H; destruct H as [<-|[]] || done; apply line_nonempty. }
  destruct c; simpl; try apply B. rewrite elem_of_list_singleton. intros ->. apply line_nonempty.
Qed.
Lemma put_lines_ok ls : ∀ s l0, (∀ l, l ∈ ls → l ≠ "") → sent_ok s l0 → sent_ok (put_lines s ls) (l0 ++ ls).
Proof.
  induction ls as [|b ls IH]; intros s l0 Hne Hs; simpl; [by rewrite app_nil_r|].
  rewrite (cons_middle b l0 ls), app_assoc. apply IH.
  - intros l Hl. apply Hne. by right.
  - apply write_metric_ok; [|done]. apply Hne. by left.
Qed.

Lemma sd_run_app o l1 : ∀ s l2, sd_run o s (l1 ++ l2) = (s' ←r sd_run o s l1; sd_run o s' l2).
Proof.
  induction l1 as [|a l1 IH]; intros s l2; simpl; [done|].
  destruct (sd_step o s a); simpl; [apply IH|done].
Qed.

Lemma sop_cmds_app h1 h2 : sop_cmds (h1 ++ h2) = sop_cmds h1 ++ sop_cmds h2.
Proof. apply omap_app. Qed.

Lemma same_out_ok s1 s2 ls : same_out s1 s2 → sent_ok s2 ls → sent_ok s1 ls.
Proof. intros [E1 E2]. unfold sent_ok. by rewrite E1, E2. Qed.

Lemma sd_run_ok o h :
  ∃ s, sd_run o sd0 h = Ok s ∧ cache_ok o s ∧ sent_ok s (concat (map (lines_of o) (sop_cmds h))).
Proof.
  induction h as [|a h IH] using rev_ind.
  - exists sd0. split_and!; [done| |].
    + intros k b Hk. simpl in Hk. rewrite lookup_empty in Hk. done.
    + split_and!; [|done|]. { exists [], []. done. } intros d Hd. by apply elem_of_nil in Hd.
  - destruct IH as (s & E & Hc & Hs). rewrite sd_run_app, E. cbn [rbind]. simpl.
    rewrite sop_cmds_app. destruct a as [c|]; simpl.
    + destruct (process_cmd_ok o s c Hc) as (s' & E' & Hc' & HS). simpl in E'. rewrite E'. cbn [rbind].
      exists s'. split_and!; [done..|].
      eapply same_out_ok; [exact HS|].
      rewrite map_app, concat_app. simpl. rewrite app_nil_r.
      apply put_lines_ok; [apply lines_nonempty|done].
    + rewrite app_nil_r. exists (sd_flush s). split_and!; [done| |by apply flush_ok].
      unfold sd_flush. case_match; done.
Qed.
