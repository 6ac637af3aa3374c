(** * Proofs about the JSON documents, continued: the theorems *)
From Verif Require Import SWire STop PUtf8 PWriter PApi PJson PJson2 PNum PNum2 PWire.

Lemma jall_text v : jall (λ _, True) v → ∃ v', jcoerced v v'.
Proof.
  induction v as [|b|n|s|l IH|l IH] using json_ind'; intros Hv; inversion Hv as [|?|? ?|? ?|? Hl|? Hl]; subst.
  - eexists; constructor.
  - eexists; constructor.
  - eexists; by constructor.
  - destruct (coerced_total s) as [t Ht]. exists (JStr t). by constructor.
  - assert (∃ l', Forall2 jcoerced l l') as [l' Hl'].
    { clear Hv. induction Hl as [|x l Hx Hl IHl]; [exists []; constructor|]. inversion IH as [|? ? H1 H2]; subst. destruct (IHl H2) as [l' ?], (H1 Hx) as [x' ?].
      exists (x' :: l'). by constructor. }
    exists (JArr l'). by constructor.
  - assert (∃ l', Forall2 (λ a b, coerced a.1 b.1 ∧ jcoerced a.2 b.2) l l') as [l' Hl'].
    { clear Hv. induction Hl as [|x l [_ Hx] Hl IHl]; [exists []; constructor|]. inversion IH as [|? ? H1 H2]; subst. destruct (IHl H2) as [l' ?], (H1 Hx) as [x' ?], (coerced_total x.1) as [k' ?].
      exists ((k', x') :: l'). by constructor. }
    exists (JObj l'). by constructor.
Qed.

(** ** C32 *)
Lemma thm_body msg v : jall no_percent v →
  render msg (Some v) = (200, indented 0 v) ∧ ∃ v', jcoerced v v' ∧ json_text v' (indented 0 v).
Proof.
  intros H. split.
  - unfold render. by rewrite fprintf0_plain by (by apply np_indented).
  - destruct (jall_text v) as [v' Hv]; [by eapply jall_impl; [|exact H]|]. exists v'. split; [done|]. apply value_json. by apply indented_ok.
Qed.

Lemma good_admits : admits good_name.
Proof. intros s H. split; [by apply plain_valid|by apply plain_no_percent]. Qed.
Lemma np_admits : admits no_percent.
Proof. intros s H. by apply plain_no_percent. Qed.

Lemma render_good msg v : jall good_name v → ∃ body, render msg (Some v) = (200, body) ∧ json_text v body ∧ parse_json body = Some v.
Proof.
  intros H. exists (indented 0 v). assert (jcoerced v v) as Hc.
  { apply jall_coerced. eapply jall_impl; [|exact H]. by intros s [? _]. }
  split; [|split].
  - apply thm_body. eapply jall_impl; [|exact H]. by intros s [_ ?].
  - apply value_json. by apply indented_ok.
  - by apply parse_indented.
Qed.

Lemma thm_health_body ff off msg inst dur l : float_codec ff → no_percent inst → in_int64 dur → Forall (ia_ok no_percent off) l →
  ∃ v v', enc_health ff off inst dur l = Some v ∧ jcoerced v v' ∧ serve_health ff off msg "/health" inst dur l = (200, indented 0 v) ∧ json_text v' (indented 0 v).
Proof.
  intros Hff Hi Hd Hl. destruct (health_passes ff off no_percent Hff np_admits (λ _ _, 0%N) inst dur l Hi Hd Hl) as (j&H1&H2&_).
  destruct (thm_body msg j H2) as (H3&v'&H4&H5). exists j, v'. unfold serve_health. rewrite bool_decide_true by done. by rewrite H1.
Qed.

(** ** C33 *)
Lemma bind_some {A B} (o : option A) (f : A → option B) : is_Some (bind o f) ↔ ∃ x, o = Some x ∧ is_Some (f x).
Proof. destruct o; cbn; [|by split; [intros [? ?]|intros (?&?&_)]]. split; [eauto|]. by intros (?&[= <-]&?). Qed.
Lemma all_some_iff {A B} (f : A → option B) l : is_Some (all_some f l) ↔ Forall (λ x, is_Some (f x)) l.
Proof.
  induction l as [|x l IH]; [by split; [constructor|eexists]|]. cbn [all_some]. rewrite Forall_cons, <-IH.
  destruct (f x) eqn:E; cbn [bind]; [|by split; [intros [? ?]|intros [[? ?] _]]].
  destruct (all_some f l); cbn [bind]; [by split; eauto|]. by split; [intros [? ?]|intros [_ [? ?]]].
Qed.
Lemma enc_map_iff {V} (enc : V → option json) m : is_Some (enc_map enc m) ↔ ∀ k v, m !! k = Some v → is_Some (enc v).
Proof.
  unfold enc_map. rewrite bind_some. assert ((∃ x, all_some (λ kv, v ←o enc kv.2; Some (kv.1, v)) (sorted_entries m) = Some x ∧ is_Some (Some (JObj x))) ↔ is_Some (all_some (λ kv : string * V, v ←o enc kv.2; Some (kv.1, v)) (sorted_entries m))) as ->.
  { split; [by intros (x&->&_)|]. intros [x Hx]. eauto. }
  rewrite all_some_iff, sorted_entries_perm, Forall_forall. split.
  - intros H k v Hk. apply elem_of_map_to_list in Hk. specialize (H _ Hk). cbn in H. by destruct (enc v); [eexists|destruct H].
  - intros H [k v] Hk. apply elem_of_map_to_list in Hk. destruct (H _ _ Hk) as [x Hx]. cbn. rewrite Hx. by eexists.
Qed.
Lemma maps_iff ff m : is_Some (maps_fields ff m) ↔ finite_maps m.
Proof.
  unfold maps_fields, finite_maps. rewrite bind_some. setoid_rewrite bind_some. setoid_rewrite bind_some. setoid_rewrite bind_some.
  pose proof (enc_map_iff (enc_timer ff) (am_timers m)) as Ht. pose proof (enc_map_iff (enc_float ff) (am_gauges m)) as Hg.
  destruct (proj2 (enc_map_iff (λ n, Some (enc_int n)) (am_events m)) ltac:(by eexists)) as [x Hx].
  destruct (proj2 (enc_map_iff enc_errc (am_errs m)) ltac:(by eexists)) as [y Hy].
  assert (Ef : ∀ f, is_Some (enc_float ff f) ↔ ffinite f = true). { intros f. unfold enc_float. destruct (ffinite f); split; try done; by intros [? ?]. }
  assert (Et : ∀ t, is_Some (enc_timer ff t) ↔ ffinite (t_ss t) = true).
  { intros t. rewrite <-Ef. unfold enc_timer, timer_fields. destruct (enc_float ff (t_ss t)); cbn; split; try (by intros [? ?]); by eexists. }
  setoid_rewrite Et in Ht. setoid_rewrite Ef in Hg. split.
  - intros (a&Ha&b&Hb&_). split; [apply Ht; by eexists|apply Hg; by eexists].
  - intros [H1 H2]. apply Ht in H1 as [a Ha]. apply Hg in H2 as [b Hb]. exists a. split; [done|]. exists b. split; [done|]. exists x. split; [done|]. exists y. split; [done|by eexists].
Qed.
Lemma job_iff ff j : is_Some (enc_job ff j) ↔ finite_maps (j_maps j) ∧ ffinite (t_ss (j_timer j)) = true.
Proof.
  unfold enc_job. rewrite bind_some. setoid_rewrite bind_some. rewrite <-(maps_iff ff). unfold timer_fields, enc_float. split.
  - intros (a&Ha&b&Hb&_). split; [by eexists|]. by destruct (ffinite _).
  - intros [[a Ha] Hf]. exists a. split; [done|]. rewrite Hf. cbn. eexists. split; [done|by eexists].
Qed.
Lemma year_iff o t : is_Some (MNum.time_text o t) ↔ year_ok o t.
Proof.
  split; [|intros H; destruct (year_civil o t H) as [s ->]; by eexists].
  unfold year_ok, MNum.time_text. replace (o * 60 * second) with (o * 60000000000) by (unfold second; lia). set (l := t + o * 60000000000).
  set (day := l / second / 86400). destruct (civil day) as [[y m] d] eqn:C. destruct (Z.leb_spec 0 y), (Z.leb_spec y 9999); cbn [andb]; try (by intros [? ?]). intros _.
  assert (Hd : -366 ≤ day < 3652059).
  { revert C. unfold civil. set (a := day / 146097). set (r0 := day `mod` 146097). set (b := Z.min (r0 / 36524) 3).
    set (r1 := r0 - 36524 * b). set (c := r1 / 1461). set (r2 := r1 - 1461 * c). set (dd := Z.min (r2 / 365) 3).
    destruct (month_day _ _ _) as [m' d']. intros E. injection E as Ey _ _.
    assert (H1 : day = 146097 * a + r0 ∧ 0 ≤ r0 < 146097). { split; [apply Z.div_mod; lia|apply Z.mod_pos_bound; lia]. }
    assert (H2 : 0 ≤ b ≤ 3 ∧ 0 ≤ r1 < 36525 ∧ r0 = 36524 * b + r1 ∧ (b = 3 ∨ r1 < 36524)).
    { pose proof (Z.div_mod r0 36524 ltac:(lia)). pose proof (Z.mod_pos_bound r0 36524 ltac:(lia)). unfold r1, b. lia. }
    assert (H3 : 0 ≤ c ≤ 24 ∧ 0 ≤ r2 < 1461 ∧ r1 = 1461 * c + r2).
    { pose proof (Z.div_mod r1 1461 ltac:(lia)). pose proof (Z.mod_pos_bound r1 1461 ltac:(lia)). unfold r2, c. lia. }
    assert (H4 : 0 ≤ dd ≤ 3 ∧ 0 ≤ r2 - 365 * dd < 366 ∧ (dd = 3 ∨ r2 - 365 * dd < 365)).
    { pose proof (Z.div_mod r2 365 ltac:(lia)). pose proof (Z.mod_pos_bound r2 365 ltac:(lia)). unfold dd. lia. }
    clearbody dd. clearbody r2. clearbody c. clearbody r1. clearbody b. clearbody r0. clearbody a. lia. }
  unfold day in Hd. rewrite Z.div_div in Hd by (unfold second; lia). unfold second in Hd.
  pose proof (Z.div_mod l (1000000000 * 86400) ltac:(lia)). pose proof (Z.mod_pos_bound l (1000000000 * 86400) ltac:(lia)). lia.
Qed.
Lemma ia_iff ff off a : is_Some (enc_ia ff off a) ↔ writable off a.
Proof.
  unfold enc_ia, writable, enc_time. rewrite <-year_iff, <-(maps_iff ff). setoid_rewrite <-(job_iff ff). rewrite <-enc_map_iff.
  destruct (MNum.time_text _ _); cbn [bind]; [|by split; [intros [? ?]|intros [[? ?] _]]].
  destruct (enc_map (enc_job ff) (ia_jobs a)); cbn [bind]; [|by split; [intros [? ?]|intros (_&_&[? ?])]].
  destruct (maps_fields ff (ia_maps a)); cbn [bind]; [|by split; [intros [? ?]|intros (_&[? ?]&_)]]. by split; eauto.
Qed.
Lemma health_iff ff off inst dur l : is_Some (enc_health ff off inst dur l) ↔ Forall (writable off) l.
Proof.
  unfold enc_health. transitivity (is_Some (all_some (enc_ia ff off) l)).
  - destruct (all_some _ _); cbn; split; try (by intros [? ?]); by eexists.
  - rewrite all_some_iff. split; intros H; (eapply Forall_impl; [exact H|]); intros a; apply ia_iff.
Qed.
Lemma thm_renders ff off msg inst dur l :
  (Forall (writable off) l → ∃ v, enc_health ff off inst dur l = Some v ∧ serve_health ff off msg "/health" inst dur l = (200, fprintf0 (indented 0 v))) ∧
  (¬ Forall (writable off) l → serve_health ff off msg "/health" inst dur l = (500, error_body msg)).
Proof.
  unfold serve_health. rewrite bool_decide_true by done. split; intros H.
  - apply (health_iff ff off inst dur) in H as [v Hv]. exists v. by rewrite Hv.
  - destruct (enc_health ff off inst dur l) eqn:E; [|done]. destruct H. apply (health_iff ff off inst dur). by rewrite E.
Qed.

(** ** C34 *)
Lemma thm_round_trip ff off msg inst dur l loc code nanos x part :
  float_codec ff → good_name inst → in_int64 dur → Forall (ia_ok good_name off) l →
  ∃ body, serve_health ff off msg "/health" inst dur l = (200, body) ∧
    fetch_of loc code nanos x part body = FReply code nanos (Reply inst dur (wire_ias off loc l)).
Proof.
  intros Hff Hi Hd Hl. destruct (health_passes ff off good_name Hff good_admits loc inst dur l Hi Hd Hl) as (j&H1&H2&H3).
  destruct (render_good msg j H2) as (body&H4&_&H6). exists body. unfold serve_health. rewrite bool_decide_true by done. rewrite H1. split; [done|].
  unfold fetch_of. rewrite H6. cbn [bind]. by rewrite H3.
Qed.

(** ** C47 *)
#[global] Instance key_le_total V : Total (@key_le V).
Proof.
  intros a b. unfold key_le. destruct (str_ltb b.1 a.1) eqn:E; [|by left]. right. apply not_true_iff_false. intros E'.
  pose proof (str_ltb_trans _ _ _ E E') as E2. by rewrite str_ltb_irrefl in E2.
Qed.
#[global] Instance key_le_trans V : Transitive (@key_le V).
Proof. intros a b c. unfold key_le. intros H1 H2. by eapply str_ltb_neg_trans. Qed.
Lemma sorted_entries_listing m : listing m (sorted_entries m).
Proof.
  split.
  - assert (StronglySorted key_le (sorted_entries m)) as Hs. { apply Sorted_StronglySorted; [apply _|]. apply Sorted_merge_sort. apply _. }
    assert (Hn : NoDup (map fst (sorted_entries m))). { change (NoDup (sorted_entries m).*1). rewrite sorted_entries_perm. apply NoDup_fst_map_to_list. }
    induction Hs as [|x l Hs IH Hx]; [constructor|]. cbn [map] in *. apply NoDup_cons in Hn as [Hk Hn]. constructor; [by apply IH|].
    apply Forall_forall. intros k Hin. apply elem_of_list_In, in_map_iff in Hin as (y&<-&Hy). apply elem_of_list_In in Hy. rewrite Forall_forall in Hx.
    specialize (Hx y Hy). unfold key_le in Hx. apply str_ltb_spec. destruct (str_ltb x.1 y.1) eqn:E; [done|].
    destruct Hk. rewrite (str_ltb_total _ _ E Hx). apply elem_of_list_In, in_map, elem_of_list_In. done.
  - intros k v. by rewrite sorted_entries_perm, elem_of_map_to_list.
Qed.
Lemma enc_kvs_ok kvs : kvs_ok kvs → kvs_json kvs (enc_kvs kvs) ∧ jall valid_utf8 (enc_kvs kvs).
Proof.
  destruct kvs as [m|]; cbn; [|split; [done|constructor]]. intros H. split.
  - eexists. split; [apply sorted_entries_listing|done].
  - constructor. apply Forall_forall. intros [k v] Hin. apply elem_of_list_In, in_map_iff in Hin as ([k' v']&[= <- <-]&Hin).
    apply elem_of_list_In in Hin. rewrite sorted_entries_perm in Hin. apply elem_of_map_to_list in Hin. destruct (H _ _ Hin). split; [done|by constructor].
Qed.
Lemma valid_admits : admits valid_utf8.
Proof. intros s. apply plain_valid. Qed.
Lemma thm_json_emit ff ts job e kvs writes :
  float_codec ff → valid_utf8 ts → valid_utf8 job → emission_ok e → kvs_ok kvs →
  ∃ text v k, json_emit ff ts job e kvs writes = writes ++ [text] ∧ json_text v text ∧ emission_json ts job e k v ∧ kvs_json kvs k.
Proof.
  intros Hff Ht Hj He Hk. destruct (enc_kvs_ok kvs Hk) as [K1 K2].
  assert (∃ v, enc_emission ff ts job e kvs = Some v ∧ jall valid_utf8 v ∧ emission_json ts job e (enc_kvs kvs) v) as (v&V1&V2&V3).
  { assert (HS : ∀ s, valid_utf8 s → jall valid_utf8 (JStr s)) by (by constructor).
    assert (HN : ∀ s, forallb (λ c, (zcode c <? 128) && negb (Ascii.eqb c "%")) (list_ascii_of_string s) = true → valid_utf8 s) by (intros s; apply (name_ok valid_utf8 valid_admits)).
    destruct e as [ev|ev m|ev n|ev f|st n]; cbn [enc_emission emission_ok] in *.
    - eexists. split; [done|]. split; [|constructor]. constructor. cbn [app]. rewrite !Forall_cons. cbn [fst snd]. split_and!; auto; by apply HN.
    - destruct He as [He1 He2]. eexists. split; [done|]. split; [|constructor]. constructor. cbn [app]. rewrite !Forall_cons. cbn [fst snd]. split_and!; auto; by apply HN.
    - destruct He as [He1 He2]. eexists. split; [done|]. split; [|constructor; by exists (dec_int n); split; [|apply dec_int_numeral]]. constructor. cbn [app]. rewrite !Forall_cons. cbn [fst snd]. split_and!; auto; try (by apply HN). apply jall_int.
    - destruct He as [He1 He2]. destruct (Hff f He2) as [H1 H2]. unfold enc_float. destruct He2 as [_ ->]. cbn [bind]. eexists. split; [done|]. split; [|constructor; by eexists]. constructor. cbn [app]. rewrite !Forall_cons. cbn [fst snd]. split_and!; auto; try (by apply HN). by constructor.
    - eexists. split; [done|]. split; [|constructor; [apply status_named_string|by exists (dec_int n); split; [|apply dec_int_numeral]]]. constructor. cbn [app]. rewrite !Forall_cons. cbn [fst snd]. split_and!; auto; try (by apply HN); [|apply jall_int].
      constructor. unfold status_string. repeat case_match; by apply HN. }
  exists (compact v), v, (enc_kvs kvs). unfold json_emit. rewrite V1. split; [done|]. split; [|done]. apply value_json, compact_ok. by apply jall_coerced.
Qed.
Lemma thm_json_nothing ff ts job ev f kvs writes : ffinite f = false → json_emit ff ts job (WGauge ev f) kvs writes = writes.
Proof. intros H. unfold json_emit. cbn. unfold enc_float. by rewrite H. Qed.
(** the text determines the emission *)
Lemma int_numeral_unique s n n' : int_numeral s n → int_numeral s n' → n = n'.
Proof. intros H1 H2. apply parse_int_spec in H1, H2. congruence. Qed.
Lemma kvs_json_unique kvs kvs' k : kvs_json kvs k → kvs_json kvs' k → kvs = kvs'.
Proof.
  destruct kvs as [m|], kvs' as [m'|]; cbn; try done.
  - intros (l&Hl&->) (l'&Hl'&E). injection E as E.
    assert (l = l') as <-. { revert l' E Hl'. clear Hl. induction l as [|[k v] l IH]; intros [|[k' v'] l'] E _; try done. injection E as -> -> E. f_equal. clear IH. revert l' E. induction l as [|[a b] l IH]; intros [|[a' b'] l'] E; try done. injection E as -> -> E. f_equal. by apply IH. }
    f_equal. apply map_eq. intros k. apply option_eq. intros v. rewrite <-(proj2 Hl k v), <-(proj2 Hl' k v). done.
  - by intros (l&_&->).
  - by intros -> (l&_&E).
Qed.
Lemma named_same st st' nm n : status_named st nm → status_named st' nm → same_emission (WComplete st n) (WComplete st' n).
Proof.
  intros H1 H2. destruct H1 as [| | | | |st Hst]; inversion H2; subst; try (by left).
  right. exists st, st', n. done.
Qed.
Lemma emission_json_inj ts job e k ts' job' e' k' v : emission_json ts job e k v → emission_json ts' job' e' k' v →
  ts = ts' ∧ job = job' ∧ k = k' ∧ same_emission e e'.
Proof.
  assert (HI : ∀ n n' v, int_json n v → int_json n' v → n = n'). { intros n n' x (s&->&H1) (s'&[= <-]&H2). by eapply int_numeral_unique. }
  intros H1 H2. destruct H1 as [ev k|ev m k|ev n x k Hx|ev f x k Hx|st nm n x k Hs Hx]; inversion H2; subst; split_and!; try done; try (by left).
  - left. f_equal. by eapply HI.
  - left. f_equal. destruct Hx as (s&->&_&E1). match goal with H : float_json _ _ |- _ => destruct H as (s'&E&_&E2) end. injection E as <-. congruence.
  - match goal with H : int_json _ _ |- _ => pose proof (HI _ _ _ Hx H) as -> end. by eapply named_same.
Qed.
Lemma thm_json_inj ff ts job e kvs ts' job' e' kvs' text :
  float_codec ff → valid_utf8 ts → valid_utf8 job → emission_ok e → kvs_ok kvs → valid_utf8 ts' → valid_utf8 job' → emission_ok e' → kvs_ok kvs' →
  json_emit ff ts job e kvs [] = [text] → json_emit ff ts' job' e' kvs' [] = [text] →
  ts = ts' ∧ job = job' ∧ kvs = kvs' ∧ same_emission e e'.
Proof.
  intros Hff A1 A2 A3 A4 B1 B2 B3 B4 E1 E2.
  destruct (thm_json_emit ff ts job e kvs [] Hff A1 A2 A3 A4) as (t1&v1&k1&T1&J1&M1&K1).
  destruct (thm_json_emit ff ts' job' e' kvs' [] Hff B1 B2 B3 B4) as (t2&v2&k2&T2&J2&M2&K2).
  rewrite T1 in E1. rewrite T2 in E2. injection E1 as ->. injection E2 as ->. rewrite (json_text_unique _ _ _ J1 J2) in M1.
  destruct (emission_json_inj _ _ _ _ _ _ _ _ _ M1 M2) as (->&->&->&?). split_and!; try done. by eapply kvs_json_unique.
Qed.

(** ** C93, C94: the pages of healthtop *)
Lemma all_some_rows {A} P (enc : A → option json) (dec : json → option (option A)) l :
  Forall (passes P enc dec Some) l → ∃ js, all_some enc l = Some js ∧ Forall (jall P) js ∧ all_some dec js = Some (map Some l).
Proof.
  induction 1 as [|x l (j&H1&H2&H3) _ (js&I1&I2&I3)]; [by exists []|]. exists (j :: js). cbn. rewrite H1. cbn. rewrite I1. cbn.
  split; [done|]. split; [by constructor|]. rewrite H3. cbn. by rewrite I3.
Qed.
Lemma row_passes ff j : float_codec ff → row_ok good_name j → passes good_name (enc_ajob ff) dec_ajob Some j.
Proof.
  intros Hff (Hn&Hi&Hf). rewrite !Forall_cons in Hi. rewrite !Forall_cons in Hf. destruct Hi as (I1&I2&I3&I4&I5&I6&I7&I8&I9&_), Hf as (F1&F2&F3&_).
  destruct (float_passes ff good_name Hff _ F1) as (x&X1&X2&X3), (float_passes ff good_name Hff _ F2) as (y&Y1&Y2&Y3), (float_passes ff good_name Hff _ F3) as (z&Z1&Z2&Z3).
  unfold passes, enc_ajob. rewrite X1, Y1, Z1. cbn [bind]. eexists. split; [done|]. split.
  - constructor. rewrite !Forall_cons. cbn [fst snd]. split_and!; try done; try apply jall_int; try (apply (name_ok good_name good_admits); done). by constructor.
  - unfold dec_ajob. cbn [members bind]. set (l := _ :: _).
    change (field "name" l) with (JStr (aj_name j)). change (field "count" l) with (enc_int (aj_count j)). change (field "count_success" l) with (enc_int (aj_success j)).
    change (field "count_validation_error" l) with (enc_int (aj_verror j)). change (field "count_panic" l) with (enc_int (aj_panic j)). change (field "count_error" l) with (enc_int (aj_error j)).
    change (field "count_junk" l) with (enc_int (aj_junk j)). change (field "nanos_sum" l) with (enc_int (aj_sum j)). change (field "nanos_sum_squares" l) with x.
    change (field "nanos_min" l) with (enc_int (aj_min j)). change (field "nanos_max" l) with (enc_int (aj_max j)). change (field "nanos_avg" l) with y. change (field "nanos_std_dev" l) with z.
    cbn [dec_str]. rewrite !dec_enc_int by done. rewrite X3, Y3, Z3. cbn [bind]. by destruct j.
Qed.
Lemma time_passes off t : zone_ok (off t) → year_ok (off t) t → ∃ j, enc_time off t = Some j ∧ jall good_name j ∧ dec_time j = Some (t, off t).
Proof.
  intros Hz Hy. destruct (year_civil _ _ Hy) as (s&Es). exists (JStr s). unfold enc_time. rewrite Es. split; [done|]. split.
  - constructor. apply good_admits. by eapply time_plain.
  - by apply time_ok.
Qed.
Lemma host_passes off h : host_ok good_name off h → passes good_name (enc_host off) dec_host Some h.
Proof.
  intros (H1&H2&H3&Hi&Ht). rewrite !Forall_cons in Hi. rewrite !Forall_cons in Ht. destruct Hi as (I1&I2&I3&_), Ht as ([T1 Y1]&[T2 Y2]&[T3 Y3]&_).
  destruct (time_passes off _ T1 Y1) as (x&X1&X2&X3), (time_passes off _ T2 Y2) as (y&Z1&Z2&Z3), (time_passes off _ T3 Y3) as (z&W1&W2&W3).
  unfold passes, enc_host. rewrite X1, Z1, W1. cbn [bind]. eexists. split; [done|]. split.
  - constructor. rewrite !Forall_cons. cbn [fst snd]. split_and!; try done; try apply jall_int; try (apply (name_ok good_name good_admits); done); by constructor.
  - unfold dec_host. cbn [members bind]. set (l := _ :: _).
    change (field "host_port" l) with (JStr (hs_hp h)). change (field "last_check_time" l) with x. change (field "last_instance_id" l) with (JStr (hs_inst h)).
    change (field "last_interval_duration" l) with (enc_int (hs_dur h)). change (field "last_err" l) with (JStr (hs_err h)). change (field "last_nanos" l) with (enc_int (hs_nanos h)).
    change (field "last_code" l) with (enc_int (hs_code h)). change (field "first_successful_response" l) with y. change (field "last_successful_response" l) with z.
    cbn [dec_str]. rewrite !dec_enc_int by done. rewrite X3, Z3, W3. cbn [bind fst]. by destruct h.
Qed.
Lemma thm_jobs_page ff msg inst dur rows x now : float_codec ff → good_name inst → in_int64 dur →
  (∀ l, rows = Some l → Forall (row_ok good_name) l) →
  ∃ body, render msg (enc_api_jobs ff inst dur rows) = (200, body) ∧ top_jobs_event x body now = TResponse (map Some (default [] rows)) now.
Proof.
  intros Hff Hi Hd Hr.
  assert (∃ j, (match rows with None => Some JNull | Some l => a ←o all_some (enc_ajob ff) l; Some (JArr a) end) = Some j ∧ jall good_name j ∧
    match j with JArr a => all_some dec_ajob a | JNull => Some [] | _ => None end = Some (map Some (default [] rows))) as (j&J1&J2&J3).
  { destruct rows as [l|]; [|exists JNull; split; [done|]; split; [constructor|done]].
    destruct (all_some_rows good_name (enc_ajob ff) dec_ajob l) as (js&S1&S2&S3).
    { eapply Forall_impl; [by apply Hr|]. intros. by apply row_passes. }
    exists (JArr js). rewrite S1. split; [done|]. split; [by constructor|done]. }
  unfold enc_api_jobs. rewrite J1. cbn [bind]. edestruct (render_good msg) as (body&B1&_&B3); [|exists body; split; [exact B1|]].
  { constructor. rewrite !Forall_cons. cbn [fst snd]. split_and!; try done; try apply jall_int; try (apply (name_ok good_name good_admits); done). by constructor. }
  unfold top_jobs_event, top_event. rewrite B3. cbn [bind]. unfold dec_rows. cbn [members bind]. set (l := _ :: _).
  change (field "instance_id" l) with (JStr inst). change (field "interval_duration" l) with (enc_int dur). change (field "jobs" l) with j.
  cbn [dec_str bind]. rewrite dec_enc_int by done. cbn [bind]. by rewrite J3.
Qed.
Lemma thm_hosts_page off msg inst dur hosts x now : good_name inst → in_int64 dur → Forall (host_ok good_name off) hosts →
  ∃ body, render msg (enc_api_hosts off inst dur hosts) = (200, body) ∧ top_hosts_event x body now = TResponse (map Some hosts) now.
Proof.
  intros Hi Hd Hr.
  destruct (all_some_rows good_name (enc_host off) dec_host hosts) as (js&S1&S2&S3).
  { eapply Forall_impl; [exact Hr|]. intros. by apply host_passes. }
  unfold enc_api_hosts. rewrite S1. cbn [bind]. edestruct (render_good msg) as (body&B1&_&B3); [|exists body; split; [exact B1|]].
  { constructor. rewrite !Forall_cons. cbn [fst snd]. split_and!; try done; try apply jall_int; try (apply (name_ok good_name good_admits); done); by constructor. }
  unfold top_hosts_event, top_event. rewrite B3. cbn [bind]. unfold dec_rows. cbn [members bind]. set (l := _ :: _).
  change (field "instance_id" l) with (JStr inst). change (field "interval_duration" l) with (enc_int dur). change (field "hosts" l) with (JArr js).
  cbn [dec_str bind]. rewrite dec_enc_int by done. cbn [bind]. by rewrite S3.
Qed.
