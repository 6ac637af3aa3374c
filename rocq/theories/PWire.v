(** * Proofs about the JSON documents: what is written is read back *)
From Verif Require Import SWire PUtf8 PWriter PJson PJson2 PNum PNum2.

(** ** trees all of whose strings satisfy [P] *)
Lemma jall_impl (P Q : string → Prop) v : (∀ s, P s → Q s) → jall P v → jall Q v.
Proof.
  intros H. induction v as [|b|n|s|l IH|l IH] using json_ind'; intros Hv; inversion Hv as [|?|? ?|? ?|? Hl|? Hl]; subst; constructor; auto.
  - clear Hv. induction Hl; inversion IH; subst; constructor; auto.
  - clear Hv. induction Hl as [|kv l [? ?] ? ?]; inversion IH; subst; constructor; auto.
Qed.
Lemma jall_coerced v : jall valid_utf8 v → jcoerced v v.
Proof.
  induction v as [|b|n|s|l IH|l IH] using json_ind'; intros Hv; inversion Hv as [|?|? ?|? ?|? Hl|? Hl]; subst; constructor; auto.
  - by apply coerced_valid.
  - clear Hv. induction Hl; inversion IH; subst; constructor; auto.
  - clear Hv. induction Hl as [|kv l [? ?] ? ?]; inversion IH; subst; constructor; auto. split; [by apply coerced_valid|auto].
Qed.

(** ** no percent signs appear by themselves *)
Lemma np_plain s : Forall (λ c, c ∈ list_ascii_of_string "0123456789+-.eE") (list_ascii_of_string s) → no_percent s.
Proof. intros H. eapply Forall_impl; [exact H|]. intros c Hc ->. cbn in Hc. set_solver. Qed.
Lemma np_dstr s : dstr s → no_percent s.
Proof. intros H. by apply plain_no_percent, plain_dstr. Qed.
Lemma np_nil : no_percent "".
Proof. constructor. Qed.
Lemma np_one c : c ≠ "%"%char → no_percent (String c "").
Proof. intros H. constructor; [done|constructor]. Qed.
Lemma np_number s : number_text s → no_percent s.
Proof.
  intros (sg&ip&fp&ep&->&Hs&Hi&Hf&He). rewrite !no_percent_app. split; [|split; [|split]].
  - rewrite !elem_of_cons, elem_of_nil in Hs. destruct Hs as [->|[->|[]]]; [apply np_nil|by apply np_one].
  - destruct Hi as [->|[[_ Hd] _]]; [by apply np_one|by apply np_dstr].
  - destruct Hf as [->|(d&->&_&Hd)]; [apply np_nil|]. apply no_percent_app. split; [by apply np_one|by apply np_dstr].
  - destruct He as [->|(e&sg'&d&->&He&Hsg&_&Hd)]; [apply np_nil|]. rewrite !no_percent_app. rewrite !elem_of_cons, elem_of_nil in He. rewrite !elem_of_cons, elem_of_nil in Hsg. split; [|split; [|by apply np_dstr]].
    + destruct He as [->|[->|[]]]; by apply np_one.
    + destruct Hsg as [->|[->|[->|[]]]]; [apply np_nil|by apply np_one..].
Qed.
Lemma np_hex k : 0 ≤ k < 16 → hex_lower k ≠ "%"%char.
Proof.
  intros H. unfold hex_lower. intros E. apply (f_equal zcode) in E. change (zcode "%") with 37 in E.
  destruct (k <? 10); rewrite zcode_zchar in E by lia; lia.
Qed.
Lemma np_u_escape r : 0 ≤ r < 65536 → no_percent (u_escape r).
Proof.
  intros H. unfold u_escape, no_percent. cbn [list_ascii_of_string].
  pose proof (Z.mod_pos_bound (r / 256) 16). pose proof (Z.mod_pos_bound (r / 16) 16). pose proof (Z.mod_pos_bound r 16).
  assert (0 ≤ r / 4096 < 16) by (split; [apply Z.div_pos; lia|apply Z.div_lt_upper_bound; lia]).
  repeat constructor; try done; apply np_hex; lia.
Qed.
Lemma np_escape f : ∀ s, (String.length s ≤ f)%nat → no_percent s → no_percent (escape_fuel f s).
Proof.
  induction f as [|f IH]; intros [|c s] Hf Hs; try (by constructor). cbn [String.length] in Hf. inversion Hs as [|? ? Hc Hs']; subst. cbn [escape_fuel].
  pose proof (zcode_bound c) as Hb. destruct (Z.ltb_spec (zcode c) 128) as [Hlt|Hge].
  - apply no_percent_app. split; [|apply IH; [lia|done]]. unfold escape_ascii.
    destruct (zcode c =? 34); [by repeat constructor|]. destruct (zcode c =? 92); [by repeat constructor|]. destruct (zcode c =? 10); [by repeat constructor|].
    destruct (zcode c =? 13); [by repeat constructor|]. destruct (zcode c =? 9); [by repeat constructor|].
    destruct (_ || _); [apply np_u_escape; lia|by apply np_one].
  - destruct (decode_rune c s) as [r t] eqn:D. pose proof (decode_shorter _ _ _ _ D).
    assert (no_percent t ∧ (r = 65533 ∨ no_percent (utf8 r))) as [Ht Hr].
    { apply decode_rune_spec in D as [[_ E]|(->&->&_)]; [|split; [done|by left]].
      assert (no_percent (String c s)) as Hcs by done. rewrite E in Hcs. apply no_percent_app in Hcs as [? ?]. split; [done|by right]. }
    apply no_percent_app. split; [|apply IH; [lia|done]].
    destruct (_ && _); [by apply np_u_escape|]. destruct (_ || _) eqn:E.
    + apply np_u_escape. rewrite orb_true_iff, !Z.eqb_eq in E. lia.
    + rewrite enc_rune_utf8. destruct Hr as [->|]; [|done]. by repeat constructor.
Qed.
Lemma np_quote s : no_percent s → no_percent (quote s).
Proof.
  intros H. unfold quote. change (String dquote ?x) with (String dquote "" +:+ x). rewrite !no_percent_app.
  split; [by repeat constructor|]. split; [by apply np_escape|by repeat constructor].
Qed.
Lemma np_compact v : jall no_percent v → no_percent (compact v).
Proof.
  induction v as [|b|n|s|l IH|l IH] using json_ind'; intros Hv; inversion Hv as [|?|? ?|? ?|? Hl|? Hl]; subst.
  - by repeat constructor.
  - destruct b; by repeat constructor.
  - by apply np_number.
  - by apply np_quote.
  - rewrite compact_arr, !no_percent_app. split; [by repeat constructor|]. split; [|by repeat constructor]. clear Hv.
    induction Hl as [|x l Hx Hl' IHl]; [constructor|]. inversion IH; subst. cbn [c_elems]. rewrite !no_percent_app.
    split; [auto|]. split; [destruct l; by repeat constructor|auto].
  - rewrite compact_obj, !no_percent_app. split; [by repeat constructor|]. split; [|by repeat constructor]. clear Hv.
    induction Hl as [|[k x] l [Hk Hx] Hl' IHl]; [constructor|]. inversion IH; subst. cbn [c_mems]. rewrite !no_percent_app.
    split; [by apply np_quote|]. split; [by repeat constructor|]. split; [auto|]. split; [destruct l; by repeat constructor|auto].
Qed.
Lemma np_newline d : no_percent (newline_at d).
Proof. unfold newline_at. apply no_percent_app. split; [by repeat constructor|]. induction d; [constructor|]. cbn. by constructor. Qed.
Lemma np_indented v : ∀ d, jall no_percent v → no_percent (indented d v).
Proof.
  induction v as [|b|n|s|l IH|l IH] using json_ind'; intros d Hv.
  1-4: by apply np_compact.
  - destruct l as [|x l]; [by apply np_compact|]. rewrite indented_arr, !no_percent_app. split; [by repeat constructor|].
    split; [|split; [apply np_newline|by repeat constructor]]. inversion Hv as [| | | |? Hl|]; subst. clear Hv. revert Hl IH. generalize (x :: l). clear x l.
    intros l Hl. induction Hl as [|x l Hx Hl' IHl]; intros IH; [constructor|]. inversion IH; subst.
    change (i_elems d (x :: l)) with (newline_at (S d) +:+ indented (S d) x +:+ (match l with [] => "" | _ => "," end) +:+ i_elems d l). rewrite !no_percent_app.
    split; [apply np_newline|]. split; [auto|]. split; [destruct l; by repeat constructor|auto].
  - destruct l as [|x l]; [by apply np_compact|]. rewrite indented_obj, !no_percent_app. split; [by repeat constructor|].
    split; [|split; [apply np_newline|by repeat constructor]]. inversion Hv as [| | | | |? Hl]; subst. clear Hv. revert Hl IH. generalize (x :: l). clear x l.
    intros l Hl. induction Hl as [|[k x] l [Hk Hx] Hl' IHl]; intros IH; [constructor|]. inversion IH; subst.
    change (i_mems d ((k, x) :: l)) with (newline_at (S d) +:+ quote k +:+ ": " +:+ indented (S d) x +:+ (match l with [] => "" | _ => "," end) +:+ i_mems d l). rewrite !no_percent_app.
    split; [apply np_newline|]. split; [by apply np_quote|]. split; [by repeat constructor|]. split; [auto|]. split; [destruct l; by repeat constructor|auto].
Qed.

(** ** maps *)
Lemma sorted_entries_perm {V} (m : gmap string V) : sorted_entries m ≡ₚ map_to_list m.
Proof. apply merge_sort_Permutation. Qed.
Lemma fold_insert {V} (l : list (string * V)) : NoDup l.*1 → ∀ m : gmap string V, fold_left (λ m kv, <[kv.1 := kv.2]> m) l m = list_to_map l ∪ m.
Proof.
  induction l as [|[k v] l IH]; intros Hn m; [cbn; by rewrite (left_id_L ∅ (∪))|]. inversion Hn as [|? ? Hk Hn']; subst. cbn [fold_left fst snd list_to_map foldr].
  rewrite IH by done. cbn. rewrite <-insert_union_l, insert_union_r; [done|]. by apply not_elem_of_list_to_map_1.
Qed.
(** each entry is written, nicely, and read back as [w] of it *)
Definition passes {V W} (P : string → Prop) (enc : V → option json) (dec : json → option W) (w : V → W) (v : V) : Prop :=
  ∃ j, enc v = Some j ∧ jall P j ∧ dec j = Some (w v).
Lemma all_some_map {A B} (f : A → option B) (g : A → B) l : (∀ x, x ∈ l → f x = Some (g x)) → all_some f l = Some (map g l).
Proof.
  induction l as [|x l IH]; intros H; [done|]. cbn. rewrite H by (by left). cbn. rewrite IH; [done|]. intros y Hy. apply H. by right.
Qed.
Lemma all_some_passes {V W} P (enc : V → option json) (dec : json → option W) (w : V → W) (l : list (string * V)) :
  Forall (λ kv, P kv.1 ∧ passes P enc dec w kv.2) l →
  ∃ js, all_some (λ kv, v ←o enc kv.2; Some (kv.1, v)) l = Some js ∧ Forall (λ kv, P kv.1 ∧ jall P kv.2) js ∧
    all_some (λ kv, x ←o dec kv.2; Some (kv.1, x)) js = Some (map (λ kv, (kv.1, w kv.2)) l).
Proof.
  induction 1 as [|[k v] l [Hk (j&He&Hj&Hd)] _ (js&IH1&IH2&IH3)]; [by exists []|]. cbn [fst snd] in *.
  exists ((k, j) :: js). cbn. rewrite He. cbn. rewrite IH1. cbn. split; [done|]. split; [by constructor|]. rewrite Hd. cbn. rewrite IH3. done.
Qed.
Lemma map_passes {V W} P (enc : V → option json) (dec : json → option W) (w : V → W) (m : gmap string V) :
  map_Forall (λ k v, P k ∧ passes P enc dec w v) m →
  ∃ js, enc_map enc m = Some (JObj js) ∧ jall P (JObj js) ∧ dec_map dec (JObj js) = Some (w <$> m).
Proof.
  intros H. destruct (all_some_passes P enc dec w (sorted_entries m)) as (js&H1&H2&H3).
  { apply Forall_forall. intros [k v] Hkv. rewrite sorted_entries_perm in Hkv. apply elem_of_map_to_list in Hkv. apply (H k v Hkv). }
  exists js. unfold enc_map. rewrite H1. cbn. split; [done|]. split; [by constructor|]. unfold dec_map. cbn [members bind]. rewrite H3. cbn [bind]. f_equal.
  assert (Hfst : ∀ l : list (string * V), (map (λ kv, (kv.1, w kv.2)) l).*1 = l.*1).
  { intros l. unfold fmap, list_fmap. induction l as [|x l IH]; [done|]. cbn. by f_equal. }
  assert (Hnd : NoDup (sorted_entries m).*1) by (rewrite sorted_entries_perm; apply NoDup_fst_map_to_list).
  rewrite fold_insert by (by rewrite Hfst). rewrite (right_id_L ∅ (∪)). apply map_eq. intros k. rewrite lookup_fmap.
  apply option_eq. intros x. rewrite <-elem_of_list_to_map by (by rewrite Hfst). rewrite elem_of_list_In, in_map_iff. split.
  - intros ([k' v]&E&Hin). injection E as -> <-. apply elem_of_list_In in Hin. rewrite sorted_entries_perm in Hin. apply elem_of_map_to_list in Hin. by rewrite Hin.
  - destruct (m !! k) as [v|] eqn:E; [|done]. intros E'. injection E' as <-. exists (k, v). split; [done|].
    apply elem_of_list_In. rewrite sorted_entries_perm. by apply elem_of_map_to_list.
Qed.
Lemma ptr_map_passes {V W} P (enc : V → option json) (dec : json → option W) (w : V → W) (m : gmap string V) :
  (∀ v j, enc v = Some j → j ≠ JNull) →
  map_Forall (λ k v, P k ∧ passes P enc dec w v) m →
  ∃ js, enc_map enc m = Some (JObj js) ∧ jall P (JObj js) ∧ dec_ptr_map dec (JObj js) = Some (w <$> m, false).
Proof.
  intros Hnn H.
  destruct (map_passes P enc (λ x, match x with JNull => Some None | _ => y ←o dec x; Some (Some y) end) (λ v, Some (w v)) m) as (js&H1&H2&H3).
  { intros k v Hkv. destruct (H k v Hkv) as [Hk (j&He&Hj&Hd)]. split; [done|]. exists j. split; [done|]. split; [done|].
    pose proof (Hnn _ _ He). destruct j; try done; by rewrite Hd. }
  exists js. split; [done|]. split; [done|]. unfold dec_ptr_map. rewrite H3. cbn [bind]. f_equal. f_equal.
  - apply map_eq. intros k. rewrite lookup_omap, !lookup_fmap. by destruct (m !! k).
  - apply not_true_iff_false. rewrite existsb_exists. intros ([k o]&Hin&Ho). apply elem_of_list_In, elem_of_map_to_list in Hin.
    rewrite lookup_fmap in Hin. destruct (m !! k); [|done]. by injection Hin as <-.
Qed.

(** ** the parts of an interval *)
Lemma jall_int P n : jall P (enc_int n).
Proof. constructor. apply dec_int_number. Qed.
Lemma dec_enc_int n : in_int64 n → dec_int64 (enc_int n) = Some n.
Proof. apply parse_int_ok. Qed.

(** plain names are always fine *)
Definition admits (P : string → Prop) : Prop := ∀ s, plain_ascii s → P s.
Ltac plain := apply (_ : plain_ascii _); unfold plain_ascii; cbn [list_ascii_of_string]; repeat constructor; done.
Lemma plain_lit s : forallb (λ c, (zcode c <? 128) && negb (Ascii.eqb c "%")) (list_ascii_of_string s) = true → plain_ascii s.
Proof.
  intros H. apply Forall_forall. intros c Hc. apply elem_of_list_In in Hc. rewrite forallb_forall in H. specialize (H c Hc).
  apply andb_true_iff in H as [H1 H2]. apply Z.ltb_lt in H1. split; [done|]. intros ->. done.
Qed.

Section passing.
  Context (ff : f64 → string) (off : Z → Z) (P : string → Prop).
  Context (Hff : float_codec ff) (HP : admits P).

  Lemma name_ok s : forallb (λ c, (zcode c <? 128) && negb (Ascii.eqb c "%")) (list_ascii_of_string s) = true → P s.
  Proof. intros H. by apply HP, plain_lit. Qed.
  Lemma float_passes f : float_ok f → passes P (enc_float ff) dec_float id f.
  Proof.
    intros Hf. destruct (Hff f Hf) as [H1 H2]. exists (JNum (ff f)). unfold enc_float. destruct Hf as [_ ->]. split; [done|]. split; [by constructor|done].
  Qed.
  Lemma int_passes n : in_int64 n → passes P (λ n, Some (enc_int n)) dec_int64 id n.
  Proof. intros Hn. exists (enc_int n). split; [done|]. split; [apply jall_int|by apply dec_enc_int]. Qed.
  Definition timer_list (t : timer) (ss : json) : list (string * json) :=
    [("count", enc_int (t_count t)); ("nanos_sum", enc_int (t_sum t)); ("nanos_sum_squares", ss); ("nanos_min", enc_int (t_min t)); ("nanos_max", enc_int (t_max t))].
  Lemma timer_fields_ok t : timer_ok t → ∃ ss, timer_fields ff t = Some (timer_list t ss) ∧ jall P ss ∧ dec_float ss = Some (t_ss t).
  Proof.
    intros (_&_&Hs&_). destruct (float_passes _ Hs) as (ss&He&Hj&Hd). exists ss. unfold timer_fields. rewrite He. done.
  Qed.
  Lemma timer_list_all t ss : jall P ss → Forall (λ kv, P kv.1 ∧ jall P kv.2) (timer_list t ss).
  Proof. intros H. repeat constructor; try (by apply name_ok); try apply dec_int_number. done. Qed.
  Lemma timer_passes t : timer_ok t → passes P (enc_timer ff) dec_timer id t.
  Proof.
    intros Ht. destruct (timer_fields_ok t Ht) as (ss&H1&H2&H3). destruct Ht as (Hc&Hs&_&Hmn&Hmx).
    exists (JObj (timer_list t ss)). unfold enc_timer. rewrite H1. split; [done|]. split; [constructor; by apply timer_list_all|].
    unfold dec_timer. cbn [members bind]. unfold dec_timer_fields.
    change (field "count" (timer_list t ss)) with (enc_int (t_count t)). change (field "nanos_sum" (timer_list t ss)) with (enc_int (t_sum t)).
    change (field "nanos_sum_squares" (timer_list t ss)) with ss. change (field "nanos_min" (timer_list t ss)) with (enc_int (t_min t)).
    change (field "nanos_max" (timer_list t ss)) with (enc_int (t_max t)).
    rewrite !dec_enc_int by done. cbn [bind]. rewrite H3. cbn [bind]. by destruct t.
  Qed.
  Lemma errc_passes c : in_int64 (ec_count c) → passes P enc_errc dec_errc wire_errc c.
  Proof.
    intros Hc. exists (JObj [("count", enc_int (ec_count c))]). split; [done|]. split.
    - constructor. repeat constructor; [by apply name_ok|apply dec_int_number].
    - unfold dec_errc. cbn [members bind]. change (field "count" _) with (enc_int (ec_count c)). rewrite dec_enc_int by done. done.
  Qed.
  Definition maps_list (a b c d : list (string * json)) : list (string * json) :=
    [("timers", JObj a); ("gauges", JObj b); ("events", JObj c); ("event_errs", JObj d)].
  Lemma maps_fields_ok m : maps_ok P m → ∃ a b c d, maps_fields ff m = Some (maps_list a b c d) ∧ Forall (λ kv, P kv.1 ∧ jall P kv.2) (maps_list a b c d) ∧
    dec_ptr_map dec_timer (JObj a) = Some (am_timers m, false) ∧ dec_map dec_float (JObj b) = Some (am_gauges m) ∧
    dec_map dec_int64 (JObj c) = Some (am_events m) ∧ dec_ptr_map dec_errc (JObj d) = Some (wire_errc <$> am_errs m, false).
  Proof.
    intros (Ht&Hg&He&Hx).
    destruct (ptr_map_passes P (enc_timer ff) dec_timer id (am_timers m)) as (a&A1&A2&A3).
    { intros v j. unfold enc_timer. destruct (timer_fields ff v); [|done]. cbn. by intros [= <-]. }
    { intros k t Hk. destruct (Ht k t Hk). split; [done|by apply timer_passes]. }
    destruct (map_passes P (enc_float ff) dec_float id (am_gauges m)) as (b&B1&B2&B3).
    { intros k t Hk. destruct (Hg k t Hk). split; [done|by apply float_passes]. }
    destruct (map_passes P (λ n, Some (enc_int n)) dec_int64 id (am_events m)) as (c&C1&C2&C3).
    { intros k t Hk. destruct (He k t Hk). split; [done|by apply int_passes]. }
    destruct (ptr_map_passes P enc_errc dec_errc wire_errc (am_errs m)) as (d&D1&D2&D3).
    { intros v j. by intros [= <-]. }
    { intros k t Hk. destruct (Hx k t Hk). split; [done|by apply errc_passes]. }
    exists a, b, c, d. rewrite map_fmap_id in A3. rewrite map_fmap_id in B3. rewrite map_fmap_id in C3. unfold maps_fields. rewrite A1, B1, C1, D1. cbn [bind]. split; [done|].
    split; [|done]. unfold maps_list. rewrite !Forall_cons. cbn [fst snd]. split_and!; try done; by apply name_ok.
  Qed.
  Lemma job_passes j : job_ok P j → passes P (enc_job ff) dec_job (λ j, (wire_job j, false)) j.
  Proof.
    intros (Hm&Ht&Ha&Hb&Hc&Hd&He). destruct (maps_fields_ok _ Hm) as (a&b&c&d&M1&M2&M3&M4&M5&M6).
    destruct (timer_fields_ok _ Ht) as (ss&T1&T2&T3). destruct Ht as (Tc&Ts&_&Tn&Tx).
    unfold passes, enc_job. rewrite M1, T1. cbn [bind]. eexists. split; [done|]. split.
    - constructor. apply Forall_app. split; [done|]. apply Forall_app. split; [by apply timer_list_all|].
      repeat constructor; try (by apply name_ok); apply dec_int_number.
    - unfold dec_job. cbn [members bind]. set (l := maps_list a b c d ++ _).
      unfold dec_maps, dec_timer_fields.
      change (field "timers" l) with (JObj a). change (field "gauges" l) with (JObj b). change (field "events" l) with (JObj c). change (field "event_errs" l) with (JObj d).
      change (field "count" l) with (enc_int (t_count (j_timer j))). change (field "nanos_sum" l) with (enc_int (t_sum (j_timer j))).
      change (field "nanos_sum_squares" l) with ss. change (field "nanos_min" l) with (enc_int (t_min (j_timer j))). change (field "nanos_max" l) with (enc_int (t_max (j_timer j))).
      change (field "count_success" l) with (enc_int (j_success j)). change (field "count_validation_error" l) with (enc_int (j_verror j)).
      change (field "count_panic" l) with (enc_int (j_panic j)). change (field "count_error" l) with (enc_int (j_error j)). change (field "count_junk" l) with (enc_int (j_junk j)).
      rewrite M3, M4, M5, M6. cbn [bind]. rewrite !dec_enc_int by done. cbn [bind]. rewrite T3. cbn [bind fst snd orb]. unfold wire_job, wire_maps. by destruct j as [jm [? ? ? ? ?] ? ? ? ? ?].
  Qed.
  Lemma year_civil o t : year_ok o t → ∃ s, time_text o t = Some s.
  Proof.
    unfold year_ok, time_text. replace (o * 60 * second) with (o * 60000000000) by (unfold second; lia). set (l := t + o * 60000000000). intros H.
    set (day := l / second / 86400).
    assert (Hd : -366 ≤ day < 3652059).
    { unfold day. rewrite Z.div_div by (unfold second; lia). unfold second. split.
      - apply Z.div_le_lower_bound; lia.
      - apply Z.div_lt_upper_bound; lia. }
    destruct (civil day) as [[y m] d] eqn:C.
    assert (0 ≤ y ≤ 9999) as [Y1 Y2].
    { revert C. unfold civil. set (a := day / 146097). set (r0 := day `mod` 146097). set (b := Z.min (r0 / 36524) 3).
      set (r1 := r0 - 36524 * b). set (c := r1 / 1461). set (r2 := r1 - 1461 * c). set (dd := Z.min (r2 / 365) 3).
      destruct (month_day _ _ _) as [m' d']. intros E. injection E as <- _ _.
      assert (H0 : day = 146097 * a + r0 ∧ 0 ≤ r0 < 146097). { split; [apply Z.div_mod; lia|apply Z.mod_pos_bound; lia]. }
      assert (H1 : 0 ≤ b ≤ 3 ∧ 0 ≤ r1 < 36525 ∧ r0 = 36524 * b + r1).
      { pose proof (Z.div_mod r0 36524 ltac:(lia)). pose proof (Z.mod_pos_bound r0 36524 ltac:(lia)). unfold r1, b. lia. }
      assert (H2 : 0 ≤ c ≤ 24 ∧ 0 ≤ r2 < 1461 ∧ r1 = 1461 * c + r2).
      { pose proof (Z.div_mod r1 1461 ltac:(lia)). pose proof (Z.mod_pos_bound r1 1461 ltac:(lia)). unfold r2, c. lia. }
      assert (H3 : 0 ≤ dd ≤ 3 ∧ 0 ≤ r2 - 365 * dd < 366 ∧ (dd = 3 ∨ r2 - 365 * dd < 365)).
      { pose proof (Z.div_mod r2 365 ltac:(lia)). pose proof (Z.mod_pos_bound r2 365 ltac:(lia)). unfold dd. lia. }
      clearbody dd. clearbody r2. clearbody c. clearbody r1. clearbody b. clearbody r0. clearbody a. lia. }
    destruct (Z.leb_spec 0 y), (Z.leb_spec y 9999); cbn [andb]; try lia. eauto.
  Qed.
  Lemma ia_passes loc a : ia_ok P off a → ∃ j, enc_ia ff off a = Some j ∧ jall P j ∧
    dec_ia loc j = Some (Some (DAgg (loc (off (ia_start a))) (wire_ia a) false)).
  Proof.
    intros (Hz&Hy&Hs&Hj&Hm). destruct (maps_fields_ok _ Hm) as (a1&b&c&d&M1&M2&M3&M4&M5&M6).
    destruct (year_civil _ _ Hy) as (st&Est). pose proof (time_ok _ _ _ Hz Est) as Hst. pose proof (time_plain _ _ _ Est) as Hpl.
    destruct (ptr_map_passes P (enc_job ff) dec_job (λ j, (wire_job j, false)) (ia_jobs a)) as (js&J1&J2&J3).
    { intros v j. unfold enc_job. destruct (maps_fields ff (j_maps v)); [|done]. cbn. destruct (timer_fields ff (j_timer v)); [|done]. cbn. by intros [= <-]. }
    { intros k t Hk. destruct (Hj k t Hk). split; [done|by apply job_passes]. }
    unfold enc_ia, enc_time. rewrite Est, J1, M1. cbn [bind]. eexists. split; [done|]. split.
    - constructor. apply Forall_app. split; [|done]. rewrite !Forall_cons. cbn [fst snd]. split_and!; try done; try (by apply name_ok); [constructor; by apply HP|apply jall_int].
    - unfold dec_ia. cbn [members bind app]. set (l := ("interval_start", JStr st) :: _). unfold dec_maps.
      change (field "interval_start" l) with (JStr st). change (field "serial_number" l) with (enc_int (ia_serial a)). change (field "jobs" l) with (JObj js).
      change (field "timers" l) with (JObj a1). change (field "gauges" l) with (JObj b). change (field "events" l) with (JObj c). change (field "event_errs" l) with (JObj d).
      cbn [dec_time]. rewrite Hst. cbn [bind]. rewrite dec_enc_int by done. cbn [bind]. rewrite J3, M3, M4, M5, M6. cbn [bind fst snd orb].
      assert (existsb (λ kv : string * (jobagg * bool), kv.2.2) (map_to_list ((λ j, (wire_job j, false)) <$> ia_jobs a)) = false) as ->.
      { apply not_true_iff_false. rewrite existsb_exists. intros ([k o]&Hin&Ho). apply elem_of_list_In, elem_of_map_to_list in Hin.
        rewrite lookup_fmap in Hin. destruct (ia_jobs a !! k); [|done]. by injection Hin as <-. }
      unfold wire_ia, wire_maps. rewrite <-map_fmap_compose. done.
  Qed.
  Lemma ias_pass loc l : Forall (ia_ok P off) l → ∀ i, ∃ js, all_some (enc_ia ff off) l = Some js ∧ Forall (jall P) js ∧
    dec_ias loc i js = Some (imap (λ n a, Some (DAgg (loc (i + n)%nat (off (ia_start a))) (wire_ia a) false)) l).
  Proof.
    induction 1 as [|a l Ha Hl IH]; intros i; [by exists []|]. destruct (ia_passes (loc i) a Ha) as (j&H1&H2&H3). destruct (IH (S i)) as (js&I1&I2&I3).
    exists (j :: js). cbn [all_some]. rewrite H1. cbn [bind]. rewrite I1. cbn [bind]. split; [done|]. split; [by constructor|].
    cbn [dec_ias]. rewrite H3. cbn [bind]. rewrite I3. cbn [bind imap]. rewrite Nat.add_0_r. do 2 f_equal. apply imap_ext. intros n b Hn. cbn. by rewrite Nat.add_succ_r.
  Qed.
  Lemma health_passes loc inst dur l : P inst → in_int64 dur → Forall (ia_ok P off) l →
    ∃ j, enc_health ff off inst dur l = Some j ∧ jall P j ∧ dec_reply loc j = Some (Reply inst dur (wire_ias off loc l)).
  Proof.
    intros Hi Hd Hl. destruct (ias_pass loc l Hl 0) as (js&H1&H2&H3). unfold enc_health. rewrite H1. cbn [bind]. eexists. split; [done|]. split.
    - constructor. rewrite !Forall_cons. cbn [fst snd]. split_and!; try (by constructor); try (by apply name_ok); apply jall_int.
    - unfold dec_reply. cbn [members bind]. set (l' := ("instance_id", JStr inst) :: _).
      change (field "instance_id" l') with (JStr inst). change (field "interval_duration" l') with (enc_int dur). change (field "aggregations" l') with (JArr js).
      cbn [dec_str bind]. rewrite dec_enc_int by done. cbn [bind]. rewrite H3. done.
  Qed.
End passing.
