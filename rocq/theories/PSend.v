(** * Proofs about the documents the Librato and Bugsnag sinks send *)
From Verif Require Import SSend STop PUtf8 PWriter PApi PJson PJson2 PNum PNum2 PWire PWire2 PLibrato PLibrato2 PAgg2 PContent.

(** ** well-formed text *)
Lemma valid_app a b : valid_utf8 a → valid_utf8 b → valid_utf8 (a +:+ b).
Proof.
  intros (r1&H1&->) (r2&H2&->). exists (r1 ++ r2). split; [by apply Forall_app|]. rewrite map_app.
  induction (map utf8 r1) as [|x l IH]; [done|]. cbn [app str_concat]. by rewrite sapp_assoc, IH.
Qed.
Lemma valid_plain s : forallb (λ c, (zcode c <? 128) && negb (Ascii.eqb c "%")) (list_ascii_of_string s) = true → valid_utf8 s.
Proof. apply (name_ok valid_utf8 valid_admits). Qed.
Lemma valid_dotted l : Forall valid_utf8 l → valid_utf8 (dotted l).
Proof.
  unfold dotted. induction 1 as [|x l Hx _ IH]; [by apply valid_plain|]. destruct l as [|y l]; [done|].
  change (valid_utf8 (x +:+ "." +:+ String.concat "." (y :: l))). apply valid_app; [done|]. apply valid_app; [by apply valid_plain|done].
Qed.
Lemma valid_full c l : utf8_names c → Forall valid_utf8 l → valid_utf8 (full c l).
Proof. intros (_&Hp&_) Hl. unfold full. apply valid_dotted. case_decide; [done|by constructor]. Qed.
Lemma valid_counted c job e k : utf8_names c → k ∈ SLibrato.counted c job e → valid_utf8 k.
Proof.
  intros Hc Hk. pose proof Hc as (_&_&Hs).
  destruct e; cbn in Hk; rewrite ?elem_of_cons, ?elem_of_nil in Hk; try done; destruct Hk as [->|[->|[]]]; apply valid_full; try done;
    repeat (constructor; [first [apply Hs | by apply valid_plain]|]); constructor.
Qed.
Lemma valid_measured c job e k v : utf8_names c → (k, v) ∈ measured c job e → valid_utf8 k.
Proof.
  intros Hc Hk. pose proof Hc as (_&_&Hs).
  destruct e as [| | | |st n]; cbn in Hk; rewrite ?elem_of_cons, ?elem_of_nil in Hk; try done.
  1,2: destruct Hk as [[= -> _]|[[= -> _]|[]]]; apply valid_full; try done; repeat (constructor; [first [apply Hs | by apply valid_plain]|]); constructor.
  destruct Hk as [[= -> _]|[]]. apply valid_full; [done|]. constructor; [apply Hs|]. constructor; [|constructor; [by apply valid_plain|constructor]].
  repeat case_match; by apply valid_plain.
Qed.
Lemma hits_in c k cmds : hits c k cmds ≠ 0 → ∃ job e, (job, e) ∈ cmds ∧ k ∈ SLibrato.counted c job e.
Proof.
  intros H. unfold hits in H. destruct (filter (λ x, x = k) (concat (map (λ '(job, e), SLibrato.counted c job e) cmds))) as [|x l] eqn:E; [done|].
  assert (Hx : x ∈ filter (λ x, x = k) (concat (map (λ '(job, e), SLibrato.counted c job e) cmds))) by (rewrite E; left).
  apply elem_of_list_filter in Hx as [-> Hx]. apply elem_of_list_In, in_concat in Hx as (y&Hy&Hx). apply in_map_iff in Hy as ([job e]&<-&Hin).
  exists job, e. by split; apply elem_of_list_In.
Qed.
Lemma samples_in c k cmds x : x ∈ samples c k cmds → ∃ job e, (job, e) ∈ cmds ∧ (k, x) ∈ measured c job e.
Proof.
  intros H. unfold samples in H. apply elem_of_list_fmap in H as ([k' v] & -> & Hv). apply elem_of_list_filter in Hv as [E Hv]. cbn in E. subst k'.
  apply elem_of_list_In, in_concat in Hv as (L & HL & Hv). apply in_map_iff in HL as ([job e] & <- & Hin). exists job, e. by split; apply elem_of_list_In.
Qed.
Lemma valid_touched c k cmds : utf8_names c → hits c k cmds ≠ 0 ∨ samples c k cmds ≠ [] → valid_utf8 k.
Proof.
  intros Hc [H|H].
  - apply hits_in in H as (job&e&_&H). by eapply valid_counted.
  - destruct (samples c k cmds) as [|x l] eqn:E; [done|]. assert (Hx : x ∈ samples c k cmds) by (rewrite E; left).
    apply samples_in in Hx as (job&e&_&H'). by eapply valid_measured.
Qed.
Lemma thm_sanitize_valid s : valid_utf8 (sanitize_key s).
Proof.
  exists (map zcode (list_ascii_of_string (sanitize_key s))).
  assert (H : ∀ a, a ∈ list_ascii_of_string (sanitize_key s) → 0 ≤ zcode a < 128).
  { intros a Ha. pose proof (zcode_bound a). assert (allowed a) as Hal. { apply (thm_sanitize_allowed s). revert Ha. clear. generalize (sanitize_key s). intros t. induction t as [|b t IH]; [done|]. cbn. set_solver. }
    apply allowed_code, kept_ascii in Hal. lia. }
  generalize dependent (sanitize_key s). intros t H. induction t as [|a t IH]; [by split; [constructor|]|].
  destruct IH as [I1 I2]. { intros b Hb. apply H. cbn. by right. }
  pose proof (H a ltac:(by left)) as Ha. cbn [list_ascii_of_string map str_concat]. split; [constructor; [left; lia|done]|].
  rewrite <-I2. unfold utf8. rewrite decide_True by lia. rewrite zchar_zcode. done.
Qed.

(** ** Librato *)
Lemma all_some_forall2 {A B} (f : A → option B) l l' : all_some f l = Some l' ↔ Forall2 (λ x y, f x = Some y) l l'.
Proof.
  revert l'. induction l as [|x l IH]; intros l'; cbn [all_some].
  - split; [intros [= <-]; constructor|]. by inversion 1.
  - destruct (f x) as [y|] eqn:E; cbn [bind].
    + destruct (all_some f l) as [r|] eqn:R; cbn [bind].
      * split; [intros [= <-]; constructor; [done|by apply IH]|]. inversion 1 as [|? y' ? r' H1 H2]; subst. apply IH in H2. congruence.
      * split; [done|]. inversion 1 as [|? y' ? r' H1 H2]; subst. by apply IH in H2.
    + split; [done|]. inversion 1; congruence.
Qed.
Definition lval_ok (v : lval) : Prop :=
  match v with LG g => float_ok (lg_sum g) ∧ float_ok (lg_min g) ∧ float_ok (lg_max g) ∧ float_ok (lg_ss g) | LC _ => True end.
Lemma enc_float_ok ff f : float_codec ff → float_ok f → enc_float ff f = Some (JNum (ff f)) ∧ float_json f (JNum (ff f)) ∧ jall valid_utf8 (JNum (ff f)).
Proof.
  intros Hff Hf. destruct (Hff f Hf) as [H1 H2]. unfold enc_float. destruct Hf as [_ ->]. split; [done|]. split; [by eexists|by constructor].
Qed.
Lemma int_json_ok n : in_int64 n → int_json n (enc_int n).
Proof. intros H. exists (dec_int n). split; [done|by apply dec_int_numeral]. Qed.
Lemma attrs_all unit : valid_utf8 unit → jall valid_utf8 (attrs_json unit).
Proof.
  intros H. constructor. rewrite !Forall_cons. cbn [fst snd]. split_and!; try done; try (by apply valid_plain); by constructor.
Qed.
Lemma enc_lval_ok ff c cmds b k v : float_codec ff → batch c cmds b → b !! k = Some v → lval_ok v →
  ∃ j, enc_lval ff v = Some j ∧ entry_json c cmds k j ∧ jall valid_utf8 j.
Proof.
  intros Hff Hb Hk Hv. destruct (Hb k) as [(_&_&E)|[(H0&Hs&E)|(H0&g&Hs&E)]]; rewrite E in Hk; [done| |]; injection Hk as <-.
  - eexists. split; [done|]. split.
    + left. split; [done|]. split; [done|]. eexists. split; [apply int_json_ok, w64_range|done].
    + constructor. rewrite !Forall_cons. cbn [fst snd]. split_and!; try (by apply valid_plain); try done; [apply jall_int|by apply attrs_all, valid_plain].
  - destruct Hv as (F1&F2&F3&F4). destruct (enc_float_ok ff _ Hff F1) as (E1&J1&A1), (enc_float_ok ff _ Hff F2) as (E2&J2&A2), (enc_float_ok ff _ Hff F3) as (E3&J3&A3), (enc_float_ok ff _ Hff F4) as (E4&J4&A4).
    cbn [enc_lval]. rewrite E1, E2, E3, E4. cbn [bind]. eexists. split; [done|]. split.
    + right. split; [done|]. do 6 eexists. split; [exact Hs|]. split; [apply int_json_ok; destruct Hs as (?&?&_&->&_); apply w64_range|]. split; [exact J1|]. split; [exact J2|]. split; [exact J3|]. split; [exact J4|]. done.
    + constructor. rewrite !Forall_cons. cbn [fst snd]. split_and!; try (by apply valid_plain); try done; [apply jall_int|by apply attrs_all, valid_plain].
Qed.
Lemma enc_batch_ok ff c cmds b : float_codec ff → utf8_names c → batch c cmds b → (∀ k v, b !! k = Some v → lval_ok v) →
  ∃ l, enc_map (enc_lval ff) b = Some (JObj l) ∧ NoDup (map fst l) ∧ (∀ k, k ∈ map fst l ↔ hits c k cmds ≠ 0 ∨ samples c k cmds ≠ []) ∧
    (∀ k x, (k, x) ∈ l → entry_json c cmds k x) ∧ jall valid_utf8 (JObj l).
Proof.
  intros Hff Hc Hb Hok.
  assert (Hdom : ∀ k, is_Some (b !! k) ↔ hits c k cmds ≠ 0 ∨ samples c k cmds ≠ []).
  { intros k. destruct (Hb k) as [(H0&H1&E)|[(H0&H1&E)|(H0&g&Hs&E)]]; rewrite E.
    - split; [by intros [? ?]|]. intros [?|?]; done.
    - split; [left; lia|by eexists].
    - split; [right|by eexists]. intros E'. rewrite E' in Hs. by destruct Hs as (?&?&?&_). }
  assert (is_Some (all_some (λ kv, v ←o enc_lval ff kv.2; Some (kv.1, v)) (sorted_entries b))) as [l Hl].
  { apply all_some_iff, Forall_forall. intros [k v] Hin. rewrite sorted_entries_perm in Hin. apply elem_of_map_to_list in Hin.
    destruct (enc_lval_ok ff c cmds b k v Hff Hb Hin (Hok _ _ Hin)) as (j&E&_). cbn. rewrite E. by eexists. }
  exists l. unfold enc_map. rewrite Hl. split; [done|]. apply all_some_forall2 in Hl.
  assert (Hk : map fst l = (sorted_entries b).*1).
  { clear -Hl. induction Hl as [|[k v] y L l H _ IH]; [done|]. cbn in *. destruct (enc_lval ff v); [|done]. injection H as <-. cbn. by rewrite IH. }
  assert (Hmem : ∀ k x, (k, x) ∈ l → ∃ v, b !! k = Some v ∧ enc_lval ff v = Some x).
  { intros k x Hin. apply elem_of_list_lookup in Hin as [i Hi]. destruct (Forall2_lookup_r _ _ _ _ _ Hl Hi) as ([k' v]&Hi'&E). cbn in E.
    destruct (enc_lval ff v) as [j|] eqn:Ej; [|done]. injection E as -> ->. exists v. split; [|done].
    apply elem_of_list_lookup_2 in Hi'. rewrite sorted_entries_perm in Hi'. by apply elem_of_map_to_list. }
  split; [rewrite Hk, sorted_entries_perm; apply NoDup_fst_map_to_list|]. split.
  { intros k. rewrite Hk, sorted_entries_perm, <-Hdom. split.
    - intros Hin. apply elem_of_list_fmap in Hin as ([k' v]&->&Hin). apply elem_of_map_to_list in Hin. by eexists.
    - intros [v Hv]. apply elem_of_list_fmap. exists (k, v). split; [done|by apply elem_of_map_to_list]. }
  assert (Hent : ∀ k x, (k, x) ∈ l → entry_json c cmds k x ∧ jall valid_utf8 x ∧ valid_utf8 k).
  { intros k x Hin. destruct (Hmem k x Hin) as (v&Hv&E). destruct (enc_lval_ok ff c cmds b k v Hff Hb Hv (Hok _ _ Hv)) as (j&E'&H1&H2). rewrite E in E'. injection E' as <-.
    split; [done|]. split; [done|]. apply (valid_touched c k cmds Hc). apply Hdom. by eexists. }
  split; [intros k x Hin; by apply Hent|]. constructor. apply Forall_forall. intros [k x] Hin. cbn. destruct (Hent k x Hin) as (_&?&?). done.
Qed.
Lemma post_ok ff c cmds b now : in_int64 now → in_int64 (Z.quot (c_period c) 1000000000) → float_codec ff → utf8_names c → cmds ≠ [] → batch c cmds b → (∀ k v, b !! k = Some v → lval_ok v) →
  b ≠ ∅ → ∃ v, enc_post ff (LPost now (Z.quot (c_period c) 1000000000) (c_source c) b) = Some v ∧ post_json c cmds now v ∧ json_text v (compact v).
Proof.
  intros Hnow Hper Hff Hc Hn Hb Hok Hne. destruct (enc_batch_ok ff c cmds b Hff Hc Hb Hok) as (l&E&H1&H2&H3&H4).
  unfold enc_post. cbn [po_gauges po_time po_period po_source]. rewrite E. cbn [bind]. rewrite (decide_False (P := b = ∅)) by done. eexists. split; [done|]. split.
  - exists (enc_int now), (enc_int (Z.quot (c_period c) 1000000000)), l. split; [by apply int_json_ok|]. split; [by apply int_json_ok|]. split; [done|]. split; [done|]. split; [done|].
    by destruct (c_source c).
  - apply value_json, compact_ok, jall_coerced. constructor. apply Forall_app. split.
    { rewrite !Forall_cons. cbn [fst snd]. split_and!; try (by apply valid_plain); try done; apply jall_int. }
    apply Forall_app. split; [|constructor; [split; [by apply valid_plain|done]|constructor]].
    case_decide; [constructor|]. constructor; [|constructor]. split; [by apply valid_plain|]. constructor. apply Hc.
Qed.

(** the requests of MLibrato.v are those with a document *)
Lemma enc_lval_some ff v : is_Some (enc_lval ff v) ↔ match v with LG g => lg_marshals g = true | LC _ => True end.
Proof.
  destruct v as [g|n]; cbn [enc_lval]; [|by split; [|eexists]]. unfold lg_marshals, enc_float.
  destruct (ffinite (lg_sum g)), (ffinite (lg_min g)), (ffinite (lg_max g)), (ffinite (lg_ss g)); cbn; split; try done; try (by intros [? ?]); by eexists.
Qed.
Lemma thm_same_requests ff c tr now ok : let s := lib_run c lib0 tr in
  Forall2 (λ p body, post_body ff p.1 = Some body) (lib_send c s now ok) (lib_send_text ff c s now).
Proof.
  cbn. destruct (run_ok c tr) as [Hc Ht]. set (s := lib_run c lib0 tr) in *. unfold lib_send, lib_send_text. case_decide; [constructor|].
  assert (forallb (λ kv, lg_marshals kv.2) (map_to_list (lb_timers s)) = true ↔ is_Some (enc_map (enc_lval ff) (lib_gauges s))) as G.
  { rewrite (marshals_rep c s _ Hc Ht), enc_map_iff. setoid_rewrite enc_lval_some. unfold representable.
    assert (HG : ∀ g, lg_marshals g = true ↔ finite (lg_sum g) ∧ finite (lg_min g) ∧ finite (lg_max g) ∧ finite (lg_ss g)).
    { intros g. unfold lg_marshals. rewrite !andb_true_iff, !marshals_finite. tauto. }
    split.
    - intros H1 k [g|n] Hk; [|done]. apply HG. by eapply H1.
    - intros H1 k g Hk. apply HG. apply (H1 k (LG g) Hk). }
  unfold post_body, enc_post. cbn [po_gauges].
  destruct (forallb _ _) eqn:F.
  - destruct (proj1 G eq_refl) as [v E]. rewrite E. cbn [bind]. constructor; [|constructor]. cbn [fst po_gauges]. by rewrite E.
  - destruct (enc_map (enc_lval ff) (lib_gauges s)) eqn:E; cbn [bind]; [|constructor]. exfalso. assert (false = true) by (apply G; by eexists). done.
Qed.

(** ** Bugsnag *)
Lemma enc_bframe_ok f : in_int64 (f_line f) → frame_json f (enc_bframe (BFrame (f_file f) (f_line f) (f_pkg f +:+ ":" +:+ f_name f) (negb (f_system f)))).
Proof. intros H. eexists. split; [by apply int_json_ok|done]. Qed.
Lemma fold_frames {A B} (g : A → B) l : ∀ acc, fold_left (λ acc f, acc ++ [g f]) l acc = acc ++ map g l.
Proof. induction l as [|x l IH]; intros acc; cbn; [by rewrite app_nil_r|]. by rewrite IH, <-app_assoc. Qed.
Lemma kvs_json_enc kvs : kvs_json kvs (enc_kvs kvs).
Proof. destruct kvs as [m|]; [|done]. eexists. split; [apply sorted_entries_listing|done]. Qed.
Definition all_kvs (P : string → Prop) (kvs : option (gmap string string)) : Prop :=
  match kvs with None => True | Some m => map_Forall (λ k v, P k ∧ P v) m end.
Lemma enc_kvs_all P kvs : all_kvs P kvs → jall P (enc_kvs kvs).
Proof.
  destruct kvs as [m|]; cbn; [|constructor]. intros H. constructor. apply Forall_forall. intros [k v] Hin. apply elem_of_list_In, in_map_iff in Hin as ([k' v']&[= <- <-]&Hin).
  apply elem_of_list_In in Hin. rewrite sorted_entries_perm in Hin. apply elem_of_map_to_list in Hin. destruct (H _ _ Hin). split; [done|by constructor].
Qed.
Lemma report_tree P cfg job event msg frames kvs : admits P → Forall (λ f, in_int64 (f_line f)) frames →
  P (bc_apikey cfg) → P (bc_stage cfg) → P (bc_host cfg) → P job → P event → P msg → all_kvs P kvs →
  Forall (λ f, P (f_file f) ∧ P (f_pkg f +:+ ":" +:+ f_name f)) frames →
  ∃ v, notify_request cfg job event msg frames kvs = (bc_endpoint cfg, indented 0 v) ∧ report_json cfg job event msg frames kvs v ∧ jall P v.
Proof.
  intros HP Hl P1 P2 P3 P4 P5 P6 P7 P8. unfold notify_request, new_payload. rewrite fold_frames. cbn [app]. eexists. split; [done|].
  set (g := λ f : frame, _).
  assert (HN : ∀ s, forallb (λ c, (zcode c <? 128) && negb (Ascii.eqb c "%")) (list_ascii_of_string s) = true → P s) by (intros s; apply (name_ok P HP)).
  assert (HS : ∀ s, P s → jall P (JStr s)) by (by constructor).
  assert (HB : ∀ b, jall P (JBool b)) by (by constructor).
  assert (HO : ∀ l, Forall (λ kv, P kv.1 ∧ jall P kv.2) l → jall P (JObj l)) by (by constructor).
  assert (HV : ∀ key, P (match (match kvs with Some m => m | None => ∅ end) !! key with Some u => u | None => "" end)).
  { intros key. destruct kvs as [m|]; [|rewrite lookup_empty; by apply HN]. destruct (m !! key) eqn:E; [|by apply HN]. by destruct (P7 _ _ E). }
  split.
  - exists (match map g frames with [] => JNull | l => JArr (map enc_bframe l) end), (enc_kvs kvs).
    exists (match (match kvs with Some m => m | None => ∅ end) !! "request" with Some u => u | None => "" end), (match (match kvs with Some m => m | None => ∅ end) !! "formdata" with Some u => u | None => "" end).
    split; [|split; [apply kvs_json_enc|]]; [|split; [|split; [|unfold enc_payload, enc_bevent; cbn [bp_apikey bp_name bp_nversion bp_nurl bp_events map bv_version bv_excs bv_context bv_stage bv_host bv_url bv_params bv_kvs enc_bexc be_class be_message be_stack]; by destruct kvs]]].
    + destruct frames as [|f frames]; [by left|]. right. split; [done|]. exists (map enc_bframe (map g (f :: frames))). split; [|reflexivity].
      clear P8. revert Hl. generalize (f :: frames). intros l0 Hl. induction Hl as [|x l Hx _ IH]; [constructor|]. constructor; [by apply enc_bframe_ok|done].
    + destruct kvs as [m|]; cbn; [|done]. destruct (m !! "request"); [by left|by right].
    + destruct kvs as [m|]; cbn; [|done]. destruct (m !! "formdata"); [by left|by right].
  - assert (jall P (match map g frames with [] => JNull | l => JArr (map enc_bframe l) end)) as HF.
    { assert (Forall (jall P) (map enc_bframe (map g frames))) as Hall.
      { clear Hl. induction P8 as [|x l [F1 F2] _ IH]; cbn [map]; constructor; [|done].
        apply HO. rewrite !Forall_cons. cbn [fst snd]. split_and!; try done; try (by apply HN); try (by apply HS); try apply HB; try apply jall_int. }
      destruct (map g frames); [constructor|by constructor]. }
    assert (jall P (enc_kvs (if match kvs with Some _ => false | None => true end then None else Some (match kvs with Some m => m | None => ∅ end)))) as HK.
    { pose proof (enc_kvs_all P kvs P7). by destruct kvs. }
    unfold enc_payload, enc_bevent, enc_bexc. cbn [bp_apikey bp_name bp_nversion bp_nurl bp_events map bv_version bv_excs bv_context bv_stage bv_host bv_url bv_params bv_kvs be_class be_message be_stack].
    apply HO. rewrite !Forall_cons. cbn [fst snd]. split_and!; try done; try (by apply HN); try (by apply HS).
    + apply HO. rewrite !Forall_cons. cbn [fst snd]. split_and!; try done; try (by apply HN); apply HS; by apply HN.
    + constructor. constructor; [|constructor]. apply HO. rewrite !Forall_cons. cbn [fst snd]. split_and!; try done; try (by apply HN); try (by apply HS).
      * apply HS. by apply HN.
      * constructor. constructor; [|constructor]. apply HO. rewrite !Forall_cons. cbn [fst snd]. split_and!; try done; try (by apply HN); by apply HS.
      * apply HO. constructor; [|constructor]. cbn. split; [by apply HN|by apply HS].
      * apply HO. constructor; [|constructor]. cbn. split; [by apply HN|by apply HS].
      * apply HO. rewrite !Forall_cons. cbn [fst snd]. split_and!; try done; try (by apply HN).
        apply HO. rewrite !Forall_cons. cbn [fst snd]. split_and!; try done; try (by apply HN); apply HS; apply HV.
Qed.
Lemma thm_report_any cfg job event msg frames kvs : Forall (λ f, in_int64 (f_line f)) frames →
  ∃ v v' body, notify_request cfg job event msg frames kvs = (bc_endpoint cfg, body) ∧ report_json cfg job event msg frames kvs v ∧
    jcoerced v v' ∧ json_text v' body.
Proof.
  intros Hl. destruct (report_tree (λ _, True) cfg job event msg frames kvs) as (v&H1&H2&H3); try done.
  { destruct kvs; cbn; [|done]. by intros ? ? _. }
  { by apply Forall_forall. }
  destruct (jall_text v H3) as [v' Hv]. exists v, v', (indented 0 v). split; [done|]. split; [done|]. split; [done|]. apply value_json. by apply indented_ok.
Qed.
Lemma thm_report cfg job event msg frames kvs : Forall (λ f, in_int64 (f_line f) ∧ frame_ok f) frames →
  config_ok cfg → valid_utf8 job → valid_utf8 event → valid_utf8 msg → kvs_ok kvs →
  ∃ v body, notify_request cfg job event msg frames kvs = (bc_endpoint cfg, body) ∧ report_json cfg job event msg frames kvs v ∧ json_text v body.
Proof.
  intros Hl (C1&C2&C3) Hj He Hm Hk. destruct (report_tree valid_utf8 cfg job event msg frames kvs) as (v&H1&H2&H3); try done.
  { apply valid_admits. }
  { eapply Forall_impl; [exact Hl|]. by intros f [? _]. }
  { eapply Forall_impl; [exact Hl|]. intros f (_&F1&F2&F3). split; [done|]. apply valid_app; [done|]. apply valid_app; [by apply valid_plain|done]. }
  exists v, (indented 0 v). split; [done|]. split; [done|]. apply value_json, indented_ok. by apply jall_coerced.
Qed.
Lemma int_json_unique n n' v : int_json n v → int_json n' v → n = n'.
Proof. intros (s&->&H1) (s'&[= <-]&H2). by eapply int_numeral_unique. Qed.
Lemma frame_json_unique f f' v : frame_json f v → frame_json f' v → frame_shown f = frame_shown f'.
Proof.
  intros (n&Hn&->) (n'&Hn'&E). injection E as E1 <- E3 E4. unfold frame_shown. pose proof (int_json_unique _ _ _ Hn Hn') as ->.
  rewrite E1, E3. by destruct (f_system f), (f_system f').
Qed.
Lemma frames_json_unique l l' v : frames_json l v → frames_json l' v → map frame_shown l = map frame_shown l'.
Proof.
  intros [[-> ->]|(Hl&vs&Hvs&->)] [[-> E]|(Hl'&vs'&Hvs'&E)]; try done. injection E as <-. clear Hl Hl'. revert l' Hvs'.
  induction Hvs as [|f v l vs Hf _ IH]; intros l' H; inversion H as [|f' ? l'' ? Hf' H']; subst; [done|]. cbn. f_equal; [by eapply frame_json_unique|by apply IH].
Qed.
Lemma thm_report_inj cfg job event msg frames kvs cfg' job' event' msg' frames' kvs' body :
  Forall (λ f, in_int64 (f_line f) ∧ frame_ok f) frames → config_ok cfg → valid_utf8 job → valid_utf8 event → valid_utf8 msg → kvs_ok kvs →
  Forall (λ f, in_int64 (f_line f) ∧ frame_ok f) frames' → config_ok cfg' → valid_utf8 job' → valid_utf8 event' → valid_utf8 msg' → kvs_ok kvs' →
  (notify_request cfg job event msg frames kvs).2 = body → (notify_request cfg' job' event' msg' frames' kvs').2 = body →
  job = job' ∧ event = event' ∧ msg = msg' ∧ map frame_shown frames = map frame_shown frames' ∧ kvs = kvs' ∧
  bc_apikey cfg = bc_apikey cfg' ∧ bc_stage cfg = bc_stage cfg' ∧ bc_host cfg = bc_host cfg'.
Proof.
  intros A1 A2 A3 A4 A5 A6 B1 B2 B3 B4 B5 B6 E1 E2.
  destruct (thm_report cfg job event msg frames kvs A1 A2 A3 A4 A5 A6) as (v&b&N&R&J).
  destruct (thm_report cfg' job' event' msg' frames' kvs' B1 B2 B3 B4 B5 B6) as (v'&b'&N'&R'&J').
  rewrite N in E1. rewrite N' in E2. cbn in E1, E2. subst b b'. pose proof (json_text_unique _ _ _ J J') as <-.
  destruct R as (st&k&url&pa&F&K&_&_&->), R' as (st'&k'&url'&pa'&F'&K'&_&_&E).
  injection E as E1 E2 E3 E4 E5 E6 E7 E8 E9 E10. subst. pose proof (frames_json_unique _ _ _ F F'). pose proof (kvs_json_unique _ _ _ K K'). done.
Qed.

(** ** the settings *)
Lemma thm_settings cfg cfg' job event msg frames kvs :
  Forall (λ f, in_int64 (f_line f) ∧ frame_ok f) frames → valid_utf8 job → valid_utf8 event → valid_utf8 msg → kvs_ok kvs → config_ok cfg → config_ok cfg' →
  notify_request cfg job event msg frames kvs = notify_request cfg' job event msg frames kvs ↔
  bc_apikey cfg = bc_apikey cfg' ∧ bc_endpoint cfg = bc_endpoint cfg' ∧ bc_stage cfg = bc_stage cfg' ∧ bc_host cfg = bc_host cfg'.
Proof.
  intros Hf Hj He Hm Hk Hc Hc'. split.
  - intros E. assert (bc_endpoint cfg = bc_endpoint cfg') by (by injection E). pose proof (f_equal snd E) as E2.
    destruct (thm_report_inj cfg job event msg frames kvs cfg' job event msg frames kvs _ Hf Hc Hj He Hm Hk Hf Hc' Hj He Hm Hk E2 eq_refl) as (_&_&_&_&_&?&?&?). done.
  - intros (E1&E2&E3&E4). unfold notify_request, new_payload. by rewrite E1, E2, E3, E4.
Qed.

(** ** what is said about a failure *)
Lemma thm_failures resp :
  (notify_stderr resp = "" ↔ resp = inr "OK") ∧
  (∀ e, resp = inl e → notify_stderr resp = "bugsnag.Notify: could not notify bugsnag. err=" +:+ e +:+ String (zchar 10) "") ∧
  (∀ body, resp = inr body → body ≠ "OK" →
    notify_stderr resp = "bugsnag.Notify: could not notify bugsnag. err=response from bugsnag wasn't 'OK'" +:+ String (zchar 10) "").
Proof.
  unfold notify_stderr, notify_result. split_and!.
  - destruct resp as [e|body]; [split; [|done]; by intros H|]. destruct (decide (body = "OK")) as [->|Hne].
    + by rewrite bool_decide_true.
    + rewrite bool_decide_false by done. split; [by intros H|]. intros [= ->]. done.
  - intros e ->. done.
  - intros body -> H. by rewrite bool_decide_false.
Qed.
