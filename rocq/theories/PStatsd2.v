(** * Proofs: sanitised names, number text, empty names *)
From Verif Require Import SStatsd PStatsd.

Lemma bytes_of_app a b : bytes_of (a +:+ b) = bytes_of a ++ bytes_of b.
Proof. induction a as [|x a IH]; [done|]. rewrite app_cons_s. simpl. by rewrite IH. Qed.
Lemma byte_count_app c a b : byte_count c (a +:+ b) = (byte_count c a + byte_count c b)%nat.
Proof. unfold byte_count. rewrite bytes_of_app, filter_app, app_length. done. Qed.
Lemma bytes_str l : bytes_of (str_of l) = l.
Proof. induction l; simpl; [done|]. by f_equal. Qed.
Lemma str_bytes s : str_of (bytes_of s) = s.
Proof. induction s; simpl; [done|]. by f_equal. Qed.

Lemma plain_app a b : plain_text a → plain_text b → plain_text (a +:+ b).
Proof. unfold plain_text. rewrite !byte_count_app. lia. Qed.
Lemma digit_plain d : 0 ≤ d < 10 → plain_text (digit d).
Proof.
  intros Hd. assert (d = 0 ∨ d = 1 ∨ d = 2 ∨ d = 3 ∨ d = 4 ∨ d = 5 ∨ d = 6 ∨ d = 7 ∨ d = 8 ∨ d = 9) as H by lia.
  repeat (destruct H as [->|H] || subst d); vm_compute; auto.
Qed.
Lemma plain_empty : plain_text "".
Proof. done. Qed.
Lemma dec_fuel_plain f : ∀ n, plain_text (dec_fuel f n).
Proof.
  induction f as [|f IH]; intros n; [apply plain_empty|]. cbn [dec_fuel].
  apply plain_app; [case_match; [apply plain_empty|apply IH]|apply digit_plain, Z.mod_pos_bound; lia].
Qed.
Lemma dec_nat_plain n : plain_text (dec_nat n).
Proof. apply dec_fuel_plain. Qed.
Lemma dec_int_plain n : plain_text (dec_int n).
Proof. unfold dec_int. case_match; [apply plain_app; [done|]|]; apply dec_nat_plain. Qed.
Lemma dec_fixed_plain k : ∀ n, plain_text (dec_fixed k n).
Proof.
  induction k as [|k IH]; intros n; [apply plain_empty|]. cbn [dec_fixed].
  apply plain_app; [apply IH|apply digit_plain, Z.mod_pos_bound; lia].
Qed.
Lemma dec_point_plain n k : plain_text (dec_point n k).
Proof. unfold dec_point. apply plain_app; [apply dec_nat_plain|]. case_match; [done|]. apply plain_app; [done|apply dec_fixed_plain]. Qed.
Lemma fmt_fixed_plain v k : plain_text (fmt_fixed v k).
Proof.
  destruct v as [s|s| |s m e]; simpl; try done.
  - apply plain_app; [by destruct s|apply dec_point_plain].
  - by destruct s.
  - apply plain_app; [by destruct s|apply dec_point_plain].
Qed.
Lemma nanos_text_plain n : plain_text (nanos_text n).
Proof. unfold nanos_text. case_match; [apply dec_int_plain|apply fmt_fixed_plain]. Qed.
Lemma gauge_text_plain o v : (∀ v, plain_text (o_short o v)) → plain_text (gauge_text o v).
Proof. intros H. unfold gauge_text. case_match; [apply H|apply fmt_fixed_plain]. Qed.

Lemma sanitize_byte_ok c : name_byte (sanitize_byte c).
Proof. unfold name_byte. destruct c as [[] [] [] [] [] [] [] []]; vm_compute; intuition congruence. Qed.
Definition name_ok (s : string) : Prop := Forall name_byte (bytes_of s).
Lemma name_ok_app a b : name_ok a → name_ok b → name_ok (a +:+ b).
Proof. unfold name_ok. rewrite bytes_of_app. apply Forall_app_2. Qed.
Lemma sanitize_key_ok s : name_ok (sanitize_key s).
Proof. unfold name_ok, sanitize_key. rewrite bytes_str. induction (bytes_of s); simpl; constructor; [apply sanitize_byte_ok|done]. Qed.
Lemma join_name_ok l : Forall name_ok l → name_ok (String.concat "." l).
Proof.
  induction l as [|x l IH]; intros H; [constructor|].
  rewrite join_alt. inversion H as [|? ? Hx Hl]; subst. apply name_ok_app; [done|].
  clear H IH. induction Hl as [|y l Hy Hl IH]; simpl; [constructor|].
  apply name_ok_app; [apply name_ok_app; [|done]|done].
  constructor; [|constructor]. right; right; left. done.
Qed.
Lemma metric_name_ok o parts : o_san o = sanitize_key → name_ok (metric_name o parts).
Proof.
  intros Hs. unfold metric_name. apply join_name_ok. rewrite Hs.
  apply Forall_forall. intros x Hx. apply elem_of_list_In, in_map_iff in Hx as (y & <- & _). apply sanitize_key_ok.
Qed.
Lemma name_byte_no c s : ¬ name_byte c → name_ok s → byte_count c s = 0%nat.
Proof.
  intros Hc. unfold name_ok, byte_count. induction (bytes_of s) as [|x l IH]; intros H; [done|].
  inversion H; subst. rewrite filter_cons. case_decide; [congruence|]. by apply IH.
Qed.
Lemma name_plain s : name_ok s → plain_text s.
Proof.
  intros H. split_and!; eapply name_byte_no; try exact H; unfold name_byte; vm_compute; intuition congruence.
Qed.

(** a line of the StatsD protocol: safe name, one colon, plain value, one bar,
    type, newline at the very end and nowhere else *)
Definition line_parts (l : string) : Prop :=
  ∃ name value ty, l = name +:+ ":" +:+ value +:+ "|" +:+ ty +:+ nl ∧
    name_ok name ∧ plain_text value ∧ (ty = "c" ∨ ty = "ms" ∨ ty = "g").
Lemma lines_of_parts o c l :
  o_san o = sanitize_key → (∀ v, plain_text (o_short o v)) → l ∈ lines_of o c → line_parts l.
Proof.
  intros Hs Hv.
  assert (∀ parts v ty, plain_text v → (ty = "c" ∨ ty = "ms" ∨ ty = "g") → line_parts (line o parts v ty)) as HL.
  { intros parts v ty H1 H2. exists (metric_name o parts), v, ty. split_and!; try done. by apply metric_name_ok. }
  assert (∀ j e x v ty, plain_text v → (ty = "c" ∨ ty = "ms" ∨ ty = "g") → l ∈ both o j e x v ty → line_parts l) as B.
  { intros j e x v ty H1 H2. unfold both. rewrite elem_of_app.
    intros [H|H]; repeat case_match; apply elem_of_list_In in H; simpl in H;
      destruct H as [<-|[]] || done; by apply HL. }
  destruct c; simpl.
  - apply B; [done|auto].
  - apply B; [done|auto].
  - apply B; [apply nanos_text_plain|auto].
  - apply B; [by apply gauge_text_plain|auto].
  - rewrite elem_of_list_singleton. intros ->. apply HL; [apply nanos_text_plain|auto].
Qed.
Lemma line_parts_counts l : line_parts l →
  byte_count ":" l = 1%nat ∧ byte_count "|" l = 1%nat ∧ byte_count newline l = 1%nat ∧ ∃ p, l = p +:+ nl.
Proof.
  intros (n & v & ty & -> & Hn%name_plain & Hv & Ht).
  destruct Hn as (? & ? & ?), Hv as (? & ? & ?).
  assert (plain_text ty) as (? & ? & ?) by (destruct Ht as [->|[->| ->]]; done).
  rewrite !byte_count_app.
  assert (∀ a b c d e : nat, a = 0%nat → c = 0%nat → e = 0%nat → (a + (b + (c + (d + (e + 0)))) = b + d)%nat) as A by lia.
  split_and!.
  - change (byte_count ":" ":") with 1%nat. change (byte_count ":" "|") with 0%nat. change (byte_count ":" nl) with 0%nat. lia.
  - change (byte_count "|" ":") with 0%nat. change (byte_count "|" "|") with 1%nat. change (byte_count "|" nl) with 0%nat. lia.
  - change (byte_count newline ":") with 0%nat. change (byte_count newline "|") with 0%nat. change (byte_count newline nl) with 1%nat. lia.
  - exists (n +:+ ":" +:+ v +:+ "|" +:+ ty). by rewrite !app_assoc_s.
Qed.

(** non-empty names *)
Lemma metric_name_nonempty o parts p :
  (∀ k, k ≠ "" → o_san o k ≠ "") → p ∈ o_prefix o :: parts → p ≠ "" → metric_name o parts ≠ "".
Proof.
  intros Hs Hp Hne. unfold metric_name.
  destruct (filter (λ p, p ≠ "") (o_prefix o :: parts)) as [|x l] eqn:E.
  { assert (p ∈ filter (λ p, p ≠ "") (o_prefix o :: parts)) as Hin by (by apply elem_of_list_filter).
    rewrite E in Hin. by apply elem_of_nil in Hin. }
  cbn [map]. rewrite join_alt.
  assert (x ≠ "") as Hx.
  { assert (x ∈ filter (λ p, p ≠ "") (o_prefix o :: parts)) as Hin by (rewrite E; by left).
    by apply elem_of_list_filter in Hin as [? _]. }
  apply Hs in Hx. destruct (o_san o x) eqn:E2; [done|]. by rewrite app_cons_s.
Qed.
Lemma sanitize_nonempty k : k ≠ "" → sanitize_key k ≠ "".
Proof. destruct k; done. Qed.

(** one command between two flushes *)
Lemma write_metric_frame p s s' b :
  sd_udp s = sd_udp s' → sd_sent s = p ++ sd_sent s' →
  sd_udp (write_metric s b) = sd_udp (write_metric s' b) ∧
  sd_sent (write_metric s b) = p ++ sd_sent (write_metric s' b).
Proof.
  intros H1 H2. unfold write_metric, sd_send. rewrite H1. repeat case_match; simpl; split; try congruence.
  all: rewrite ?H1, H2, ?app_assoc; done.
Qed.
Lemma put_lines_frame p ls : ∀ s s',
  sd_udp s = sd_udp s' → sd_sent s = p ++ sd_sent s' →
  sd_udp (put_lines s ls) = sd_udp (put_lines s' ls) ∧
  sd_sent (put_lines s ls) = p ++ sd_sent (put_lines s' ls).
Proof.
  induction ls as [|b ls IH]; intros s s' H1 H2; simpl; [done|].
  destruct (write_metric_frame p s s' b H1 H2). by apply IH.
Qed.
Lemma one_command o h c s1 s2 :
  sd_run o sd0 (h ++ [DoFlush]) = Ok s1 →
  sd_run o sd0 (h ++ [DoFlush; DoCmd c; DoFlush]) = Ok s2 →
  sd_udp s1 = "" ∧ sd_udp s2 = "" ∧
  ∃ more, sd_sent s2 = sd_sent s1 ++ more ∧ packed more "" (sendable o [c]).
Proof.
  intros H1 H2. change [DoFlush; DoCmd c; DoFlush] with ([DoFlush] ++ [DoCmd c; DoFlush]) in H2.
  rewrite app_assoc, sd_run_app, H1 in H2. cbn [rbind] in H2.
  assert (sd_udp s1 = "" ∧ cache_ok o s1) as [Hu Hc].
  { destruct (sd_run_ok o (h ++ [DoFlush])) as (s' & E & Hc & _). rewrite E in H1. injection H1 as ->.
    split; [|done]. rewrite sd_run_app in E. destruct (sd_run o sd0 h) as [s0|]; [|done]. cbn [rbind sd_run sd_step] in E.
    injection E as <-. unfold sd_flush. case_match eqn:E; [done|]. apply zlen_0. pose proof (zlen_nonneg (sd_udp s0)). lia. }
  destruct (process_cmd_ok o s1 c Hc) as (s' & E' & _ & [HU HS]).
  cbn [sd_run sd_step] in H2. rewrite E' in H2. cbn [rbind] in H2. injection H2 as <-.
  destruct (put_lines_frame (sd_sent s1) (lines_of o c) s1 sd0) as [F1 F2]; [done|by rewrite app_nil_r|].
  rewrite F1 in HU. rewrite F2 in HS.
  destruct (put_lines_ok (lines_of o c) sd0 []) as (HP & _ & _).
  { apply lines_nonempty. } { split_and!; [|done|]. { exists [], []. done. } intros d Hd. by apply elem_of_nil in Hd. }
  simpl in HP. split; [done|]. unfold sendable. simpl. rewrite app_nil_r.
  destruct HP as (g & p & G1 & G2 & G3).
  unfold sd_flush. rewrite HU. case_match eqn:E; simpl.
  - split; [done|]. eexists. split; [by rewrite HS, <-app_assoc|]. rewrite HU.
    exists (g ++ [p]), []. rewrite map_app, concat_app, G1, G2, G3. simpl. by rewrite !app_nil_r.
  - assert (sd_udp (put_lines sd0 (lines_of o c)) = "") as Z.
    { apply zlen_0. pose proof (zlen_nonneg (sd_udp (put_lines sd0 (lines_of o c)))). lia. }
    rewrite HU, Z. split; [done|]. eexists. split; [by rewrite HS|]. exists g, p. rewrite <-G2, Z. done.
Qed.

(** named commands *)
Definition named (c : cmd) : Prop :=
  match c with
  | CEvent _ e | CTiming _ e _ | CGauge _ e _ => e ≠ ""
  | CEventErr _ _ _ => True
  | CComplete j st _ => j ≠ "" ∨ 0 ≤ st ≤ 4
  end.
Lemma named_lines o c l :
  (∀ k, k ≠ "" → o_san o k ≠ "") → o_prefix o ≠ "" ∨ named c → l ∈ lines_of o c →
  ∃ name rest, name ≠ "" ∧ l = name +:+ ":" +:+ rest.
Proof.
  intros Hs Hn.
  assert (∀ parts v ty p, p ∈ o_prefix o :: parts → p ≠ "" → ∃ name rest, name ≠ "" ∧ line o parts v ty = name +:+ ":" +:+ rest) as HL.
  { intros parts v ty p Hp Hne. exists (metric_name o parts). eexists. split; [by eapply metric_name_nonempty|]. done. }
  assert (∀ j e x v ty, (o_prefix o ≠ "" ∨ e ≠ "" ∨ x ≠ "") → l ∈ both o j e x v ty →
     ∃ name rest, name ≠ "" ∧ l = name +:+ ":" +:+ rest) as B.
  { intros j e x v ty Hor. unfold both. rewrite elem_of_app.
    intros [H|H]; repeat case_match; apply elem_of_list_In in H; simpl in H; destruct H as [<-|[]] || done.
    - destruct Hor as [?|[?|?]]; [eapply (HL _ _ _ (o_prefix o))|eapply (HL _ _ _ e)|eapply (HL _ _ _ x)]; try done; set_solver.
    - destruct Hor as [?|[?|?]]; [eapply (HL _ _ _ (o_prefix o))|eapply (HL _ _ _ e)|eapply (HL _ _ _ x)]; try done; set_solver. }
  destruct c as [j e|j e er|j e n|j e v|j st n]; simpl in *.
  - apply B. tauto.
  - apply B. auto.
  - apply B. tauto.
  - apply B. tauto.
  - rewrite elem_of_list_singleton. intros ->.
    destruct Hn as [?|[?|Hst]]; [eapply (HL _ _ _ (o_prefix o))|eapply (HL _ _ _ j)|eapply (HL _ _ _ (status_string st))]; try done; try set_solver.
    assert (st = 0 ∨ st = 1 ∨ st = 2 ∨ st = 3 ∨ st = 4) as H by lia.
    destruct H as [->|[->|[->|[->| ->]]]]; done.
Qed.
