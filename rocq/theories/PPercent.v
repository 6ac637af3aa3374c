(** * Proofs about Fprintf without operands: it changes every text that has a
    percent sign *)
From Verif Require Import SWire PUtf8 PWriter PJson PJson2 PNum PNum2 PWire PWire2.

(** ** percent signs and stars *)
Fixpoint wt (s : string) : nat :=
  match s with
  | EmptyString => 0%nat
  | String c s' => ((if Ascii.eqb c "%" || Ascii.eqb c "*" then 1 else 0) + wt s')%nat
  end.
Lemma wt_app a b : wt (a +:+ b) = (wt a + wt b)%nat.
Proof. induction a as [|c a IH]; [done|]. rewrite sapp_cons. cbn [wt]. rewrite IH. lia. Qed.

(** [s] ends with [t] *)
Definition ends (s t : string) : Prop := ∃ u, s = u +:+ t.
Lemma ends_refl s : ends s s. Proof. by exists "". Qed.
Lemma ends_trans a b c : ends a b → ends b c → ends a c.
Proof. intros [u ->] [v ->]. exists (u +:+ v). by rewrite sapp_assoc. Qed.
Lemma ends_cons x s t : ends s t → ends (String x s) t.
Proof. intros [u ->]. by exists (String x u). Qed.
Lemma ends_nil s : ends s "". Proof. exists s. by rewrite sapp_nil_r. Qed.
Lemma ends_wt s t : ends s t → (wt t ≤ wt s)%nat.
Proof. intros [u ->]. rewrite wt_app. lia. Qed.

Lemma skip_flags_ends s : ends s (skip_flags s).
Proof. induction s as [|c s IH]; cbn; [apply ends_refl|]. destruct is_flag; [by apply ends_cons|apply ends_refl]. Qed.
Lemma parse_num_ends s : ∀ n b, ends s (parse_num n b s).2.
Proof.
  induction s as [|c s IH]; intros n b; cbn [parse_num]; [apply ends_refl|].
  destruct is_digit; [|apply ends_refl]. destruct (_ <? _); [apply ends_nil|]. apply ends_cons, IH.
Qed.
Lemma cut_bracket_ends s : ∀ a b, cut_bracket s = Some (a, b) → ends s b.
Proof.
  induction s as [|c s IH]; intros a b; cbn [cut_bracket]; [done|]. destruct (Ascii.eqb c "]").
  - intros [= <- <-]. apply ends_cons, ends_refl.
  - destruct (cut_bracket s) as [[a' b']|]; [|done]. intros [= <- <-]. by eapply ends_cons, IH.
Qed.
Lemma arg_number_ends s : ends s (arg_number s).2.
Proof.
  destruct s as [|c s]; cbn [arg_number]; [apply ends_refl|]. destruct (Ascii.eqb c "["); [|apply ends_refl].
  destruct (cut_bracket s) as [[d r]|] eqn:E; [|apply ends_cons, ends_refl].
  destruct (_ <? _)%nat; [apply ends_cons, ends_refl|]. destruct (parse_num 0 false d) as [i d']. cbn. by eapply ends_cons, cut_bracket_ends.
Qed.

(** ** a directive *)
Lemma wt_rune c s r t : decode_rune c s = (r, t) → ends (String c s) t ∧ (r ≠ 37 → (wt (enc_rune r) + wt t ≤ wt (String c s))%nat) ∧ (r = 37 → wt (String c s) = S (wt t)).
Proof.
  intros H. apply decode_rune_spec in H as [[Hr E]|(-> & -> & _)].
  - rewrite E. split; [by eexists|]. rewrite wt_app. split; [intros _; by rewrite enc_rune_utf8|]. by intros ->.
  - split; [apply ends_cons, ends_refl|]. split; [intros _|done].
    change (wt (enc_rune 65533)) with 0%nat. cbn [wt]. lia.
Qed.

Lemma directive_spec s o rest : directive s = (o, rest) →
  ends s rest ∧ (wt o + wt rest ≤ S (wt s))%nat ∧
  ((o = "%" ∧ (S (wt rest) ≤ wt s)%nat) ∨ ∃ o', o = "%!" +:+ o').
Proof.
  unfold directive. pose proof (skip_flags_ends s) as E0. set (s0 := skip_flags s) in *.
  pose proof (arg_number_ends s0) as E1. destruct (arg_number s0) as [[good1 idx1] s1]. cbn [snd] in E1.
  assert (E01 := ends_trans _ _ _ E0 E1). clear E0 E1. clearbody s0. clear s0.
  set (st2 := match s1 with String "*" s' => _ | _ => _ end).
  assert (∃ out1 good2 idx2 s2, st2 = (out1, good2, idx2, s2) ∧ ends s1 s2 ∧ (wt out1 + wt s2 ≤ wt s1)%nat ∧ (out1 = "" ∨ ∃ o', out1 = "%!" +:+ o')) as (out1 & good2 & idx2 & s2 & -> & E2 & W2 & O2).
  { assert (∀ d, st2 = (let '(isnum, s') := parse_num 0 false s1 in ("", good1 && negb (idx1 && isnum), idx1, s')) → d = st2 →
      ∃ out1 good2 idx2 s2, d = (out1, good2, idx2, s2) ∧ ends s1 s2 ∧ (wt out1 + wt s2 ≤ wt s1)%nat ∧ (out1 = "" ∨ ∃ o', out1 = "%!" +:+ o')) as Hd.
    { intros d -> ->. pose proof (parse_num_ends s1 0 false) as Hp. destruct (parse_num 0 false s1) as [i s']. cbn [snd] in Hp.
      eexists _, _, _, _. split; [done|]. split; [done|]. split; [by apply ends_wt in Hp|by left]. }
    destruct s1 as [|c s1]; [by apply Hd|]. destruct (decide (c = "*"%char)) as [->|Hc].
    - eexists _, _, _, _. split; [done|]. split; [apply ends_cons, ends_refl|]. split; [cbn; lia|]. right. by exists "(BADWIDTH)".
    - apply Hd; [|done]. unfold st2. destruct c as [[] [] [] [] [] [] [] []]; try done. }
  set (st3 := match s2 with String "." s' => _ | _ => _ end).
  assert (∃ out2 good3 idx3 s3, st3 = (out2, good3, idx3, s3) ∧ ends s2 s3 ∧ (wt out2 + wt s3 ≤ wt out1 + wt s2)%nat ∧ (out2 = "" ∨ ∃ o', out2 = "%!" +:+ o')) as (out2 & good3 & idx3 & s3 & -> & E3 & W3 & O3).
  { assert ((∃ s', s2 = String "." s') ∨ ¬ ∃ s', s2 = String "." s') as [Hs|Hs].
    { destruct s2 as [|c s2]; [right; by intros [? ?]|]. destruct (decide (c = "."%char)) as [->|]; [left; eauto|right; intros [? [= -> _]]; done]. }
    - destruct Hs as [s' ->]. unfold st3. pose proof (arg_number_ends s') as Ea. destruct (arg_number s') as [[g idx] s'']. cbn [snd] in Ea.
      assert (Wa := ends_wt _ _ Ea). set (st4 := match s'' with String "*" _ => _ | _ => _ end).
      assert (∀ d, st4 = (out1, good2 && negb idx2 && g, idx, (parse_num 0 false s'').2) → d = st4 →
        ∃ out2 good3 idx3 s3, d = (out2, good3, idx3, s3) ∧ ends (String "." s') s3 ∧ (wt out2 + wt s3 ≤ wt out1 + wt (String "." s'))%nat ∧ (out2 = "" ∨ ∃ o', out2 = "%!" +:+ o')) as Hd.
      { intros d -> ->. pose proof (parse_num_ends s'' 0 false) as Hp. eexists _, _, _, _. split; [done|].
        split; [apply ends_cons; by eapply ends_trans|]. split; [apply ends_wt in Hp; cbn; lia|done]. }
      destruct s'' as [|c s'']; [by apply Hd|]. destruct (decide (c = "*"%char)) as [->|Hc].
      + eexists _, _, _, _. split; [done|]. split; [apply ends_cons; eapply ends_trans; [done|apply ends_cons, ends_refl]|].
        split; [rewrite wt_app; cbn in *; lia|]. right. destruct O2 as [-> |[o' ->]]; [by exists "(BADPREC)"|].
        exists (o' +:+ "%!(BADPREC)"). by rewrite sapp_assoc.
      + apply Hd; [|done]. unfold st4. destruct c as [[] [] [] [] [] [] [] []]; try done.
    - exists out1, good2, idx2, s2. split; [|split; [apply ends_refl|done]].
      unfold st3. destruct s2 as [|c s2]; [done|]. destruct c as [[] [] [] [] [] [] [] []]; try done. exfalso. apply Hs. by eexists. }
  set (st5 := if idx3 then _ else _).
  assert (∃ good4 s4, st5 = (good4, s4) ∧ ends s3 s4) as (good4 & s4 & -> & E4).
  { unfold st5. destruct idx3; [eexists _, _; split; [done|apply ends_refl]|].
    pose proof (arg_number_ends s3) as Ea. destruct (arg_number s3) as [[g ?] s']. eexists _, _. by split. }
  assert (W4 := ends_wt _ _ E4). assert (W1 := ends_wt _ _ E01).
  assert (Es : ends s s4) by (eapply ends_trans; [exact E01|]; eapply ends_trans; [exact E2|]; by eapply ends_trans).
  destruct s4 as [|c s4].
  - intros [= <- <-]. split; [done|]. split; [rewrite wt_app; cbn; lia|]. right.
    destruct O3 as [-> |[o' ->]]; [by exists "(NOVERB)"|]. exists (o' +:+ "%!(NOVERB)"). by rewrite sapp_assoc.
  - destruct (decode_rune c s4) as [r t] eqn:D. intros [= <- <-]. apply wt_rune in D as (Et & Hn & Hp).
    split; [by eapply ends_trans|]. rewrite wt_app. destruct (Z.eqb_spec r 37) as [->|Hr].
    + specialize (Hp eq_refl). split; [change (wt "%") with 1%nat; lia|]. destruct O3 as [-> |[o' ->]]; [left|right].
      * split; [done|]. change (wt "") with 0%nat in W3. lia.
      * exists (o' +:+ "%"). by rewrite sapp_assoc.
    + specialize (Hn Hr). split.
      * destruct good4; cbn [negb]; rewrite !wt_app; cbn [wt Ascii.eqb]; cbn; lia.
      * right. destruct O3 as [-> |[o' ->]]; destruct good4; cbn [negb]; eexists; rewrite ?sapp_assoc; reflexivity.
Qed.

(** ** the whole text *)
Lemma sapp_split (a b c d : string) : a +:+ b = c +:+ d → (∃ k, c = a +:+ k ∧ b = k +:+ d) ∨ (∃ k, a = c +:+ k ∧ d = k +:+ b).
Proof.
  revert c. induction a as [|x a IH]; intros c H; [left; by exists c|].
  destruct c as [|y c]; [right; by exists (String x a)|]. rewrite !sapp_cons in H. injection H as -> H.
  apply IH in H as [(k & -> & ->)|(k & -> & ->)]; [left|right]; by exists k.
Qed.
Lemma ends_length s t : ends s t → (String.length t ≤ String.length s)%nat.
Proof. intros [u ->]. induction u as [|c u IH]; [done|]. rewrite sapp_cons. cbn [String.length]. lia. Qed.

(** the output cannot be ahead of the text by something with a percent sign or a star *)
Lemma not_ahead f : ∀ s x, (String.length s ≤ f)%nat → (1 ≤ wt x)%nat → fprintf_fuel f s ≠ x +:+ s.
Proof.
  induction f as [|f IH]; intros s x Hf Hx E.
  { destruct s; cbn in Hf; [|lia]. rewrite sapp_nil_r in E. cbn in E. subst x. cbn in Hx. lia. }
  destruct s as [|c s]. { rewrite sapp_nil_r in E. cbn in E. subst x. cbn in Hx. lia. }
  cbn [String.length] in Hf. cbn [fprintf_fuel] in E. destruct (Ascii.eqb_spec c "%") as [->|Hc].
  - destruct (directive s) as [o rest] eqn:D. apply directive_spec in D as ((u & ->) & W & _). rewrite wt_app in W.
    assert (x +:+ String "%" (u +:+ rest) = (x +:+ String "%" u) +:+ rest) as Ex by (rewrite sapp_assoc; done).
    rewrite Ex in E. apply sapp_split in E as [(k & Ek & Er)|(k & Ek & _)].
    + apply (f_equal wt) in Ek. rewrite !wt_app in Ek. cbn [wt] in Ek. change (Ascii.eqb "%" "%") with true in Ek. cbn [orb] in Ek.
      apply (IH rest k); [|lia|done]. pose proof (ends_length (u +:+ rest) rest). assert (ends (u +:+ rest) rest) by (by exists u). specialize (H H0). lia.
    + apply (f_equal wt) in Ek. rewrite !wt_app in Ek. cbn [wt] in Ek. change (Ascii.eqb "%" "%") with true in Ek. cbn [orb] in Ek. lia.
  - destruct x as [|d x]; [cbn in Hx; lia|]. rewrite sapp_cons in E. injection E as <- E.
    apply (IH s (x +:+ String c "")); [lia| |].
    + rewrite wt_app. cbn [wt] in *. lia.
    + by rewrite sapp_assoc.
Qed.
(** nor behind it by something without *)
Lemma not_behind f : ∀ s y, (String.length s ≤ f)%nat → y ≠ "" → no_percent y → s ≠ y +:+ fprintf_fuel f s.
Proof.
  induction f as [|f IH]; intros s y Hf Hy Hn E.
  { destruct s; cbn in Hf; [|lia]. destruct y; [done|]. by rewrite sapp_cons in E. }
  destruct s as [|c s]; [destruct y; [done|]; by rewrite sapp_cons in E|].
  destruct y as [|d y]; [done|]. rewrite sapp_cons in E. injection E as <- E. inversion Hn as [|? ? Hc Hn']; subst.
  cbn [fprintf_fuel] in E. destruct (Ascii.eqb_spec c "%") as [->|_]; [done|]. cbn [String.length] in Hf.
  apply (IH s (y +:+ String c "")); [lia|by destruct y| |].
  - apply no_percent_app. split; [done|]. constructor; [done|constructor].
  - by rewrite sapp_assoc.
Qed.

Lemma directive_bang s : directive (String "!" s) = ("%!!(MISSING)", s).
Proof. reflexivity. Qed.

Lemma fprintf_fixed f : ∀ s, (String.length s ≤ f)%nat → fprintf_fuel f s = s → no_percent s.
Proof.
  induction f as [|f IH]; intros s Hf E; [destruct s; cbn in Hf; [constructor|lia]|].
  destruct s as [|c s]; [constructor|]. cbn [String.length] in Hf. cbn [fprintf_fuel] in E. destruct (Ascii.eqb_spec c "%") as [->|Hc].
  - exfalso. destruct (directive s) as [o rest] eqn:D. assert (D' := D). apply directive_spec in D' as ((u & Eu) & W & [[-> Hw]|[o' ->]]).
    + rewrite sapp_one in E. injection E as E. rewrite Eu in Hw, Hf, E. rewrite wt_app in Hw. apply (not_ahead f rest u); [|lia|done].
      assert (Hl : ends (u +:+ rest) rest) by (by exists u). apply ends_length in Hl. lia.
    + change ("%!" +:+ o') with (String "%" (String "!" o')) in E. rewrite !sapp_cons in E. injection E as E.
      destruct s as [|c s]; [done|]. injection E as <- E. rewrite directive_bang in D. injection D as <- <-.
      apply (not_behind f s "!(MISSING)"); [cbn in Hf; lia|done|by repeat constructor|symmetry; exact E].
  - injection E as E. constructor; [done|]. apply IH; [lia|done].
Qed.
Lemma fprintf0_fixed s : fprintf0 s = s ↔ no_percent s.
Proof. split; [by apply fprintf_fixed|apply fprintf0_plain]. Qed.

(** ** a percent sign in a string is one in the document *)
Lemma escape_np f : ∀ s, (String.length s ≤ f)%nat → no_percent (escape_fuel f s) → no_percent s.
Proof.
  induction f as [|f IH]; intros [|c s] Hf Hs; cbn [String.length] in Hf; [constructor|lia|constructor|]. cbn [escape_fuel] in Hs.
  destruct (Z.ltb_spec (zcode c) 128) as [Hlt|Hge].
  - apply no_percent_app in Hs as [Hc Hs]. constructor; [|apply IH; [lia|done]]. intros ->. cbn in Hc. by inversion Hc.
  - destruct (decode_rune c s) as [r t] eqn:D. pose proof (decode_shorter _ _ _ _ D).
    apply no_percent_app in Hs as [Hr Hs]. apply IH in Hs; [|lia].
    assert (c ≠ "%"%char) as Hc by (intros ->; change (zcode "%") with 37 in Hge; lia).
    destruct (_ && _) eqn:E1.
    { apply andb_true_iff in E1 as [_ E1]. apply bool_decide_eq_true in E1 as ->. by constructor. }
    apply decode_rune_spec in D as [[_ E]|(_ & -> & _)]; [|by constructor]. rewrite E. apply no_percent_app. split; [|done].
    destruct (_ || _) eqn:E2; [|by rewrite <-enc_rune_utf8].
    rewrite orb_true_iff, !Z.eqb_eq in E2. destruct E2 as [-> | ->]; by repeat constructor.
Qed.
Lemma quote_np s : no_percent (quote s) → no_percent s.
Proof.
  unfold quote. change (String dquote ?x) with (String dquote "" +:+ x). rewrite !no_percent_app. intros (_ & H & _).
  by apply (escape_np (String.length s)).
Qed.
Lemma compact_np v : jall (λ _, True) v → no_percent (compact v) → jall no_percent v.
Proof.
  induction v as [|b|n|s|l IH|l IH] using json_ind'; intros Hv Hn; inversion Hv as [|?|? ?|? ?|? Hl|? Hl]; subst; try (by constructor).
  - constructor. by apply quote_np.
  - rewrite compact_arr, !no_percent_app in Hn. destruct Hn as (_ & Hn & _). clear Hv. constructor.
    induction Hl as [|x l Hx Hl' IHl]; [constructor|]. inversion IH; subst. cbn [c_elems] in Hn. rewrite !no_percent_app in Hn.
    destruct Hn as (? & _ & ?). constructor; auto.
  - rewrite compact_obj, !no_percent_app in Hn. destruct Hn as (_ & Hn & _). clear Hv. constructor.
    induction Hl as [|[k x] l [Hk Hx] Hl' IHl]; [constructor|]. inversion IH; subst. cbn [c_mems] in Hn. rewrite !no_percent_app in Hn.
    destruct Hn as (? & _ & ? & _ & ?). constructor; [split; [by apply quote_np|auto]|auto].
Qed.
Lemma indented_np v : ∀ d, jall (λ _, True) v → no_percent (indented d v) → jall no_percent v.
Proof.
  induction v as [|b|n|s|l IH|l IH] using json_ind'; intros d Hv Hn.
  1-4: by apply compact_np.
  - destruct l as [|x l]; [by apply compact_np|]. rewrite indented_arr, !no_percent_app in Hn. destruct Hn as (_ & Hn & _).
    inversion Hv as [| | | |? Hl|]; subst. clear Hv. constructor. revert Hl IH Hn. generalize (x :: l). clear x l.
    intros l Hl. induction Hl as [|x l Hx Hl' IHl]; intros IH Hn; [constructor|]. inversion IH as [|? ? IHx IHr]; subst.
    change (i_elems d (x :: l)) with (newline_at (S d) +:+ indented (S d) x +:+ (match l with [] => "" | _ => "," end) +:+ i_elems d l) in Hn. rewrite !no_percent_app in Hn.
    destruct Hn as (_ & ? & _ & ?). constructor; [by apply (IHx (S d))|auto].
  - destruct l as [|x l]; [by apply compact_np|]. rewrite indented_obj, !no_percent_app in Hn. destruct Hn as (_ & Hn & _).
    inversion Hv as [| | | | |? Hl]; subst. clear Hv. constructor. revert Hl IH Hn. generalize (x :: l). clear x l.
    intros l Hl. induction Hl as [|[k x] l [Hk Hx] Hl' IHl]; intros IH Hn; [constructor|]. inversion IH as [|? ? IHx IHr]; subst.
    change (i_mems d ((k, x) :: l)) with (newline_at (S d) +:+ quote k +:+ ": " +:+ indented (S d) x +:+ (match l with [] => "" | _ => "," end) +:+ i_mems d l) in Hn. rewrite !no_percent_app in Hn.
    destruct Hn as (_ & ? & _ & ? & _ & ?). constructor; [split; [by apply quote_np|by apply (IHx (S d))]|auto].
Qed.

Lemma thm_page_exact msg v : jall (λ _, True) v → render msg (Some v) = (200, indented 0 v) ↔ jall no_percent v.
Proof.
  intros Hv. split.
  - intros H. cbn in H. apply (f_equal snd) in H. cbn in H. apply fprintf0_fixed in H. by apply (indented_np v 0).
  - intros H. by apply thm_body.
Qed.

(** ** the names of /health *)
Lemma all_some_elem {A B} (f : A → option B) l l' : all_some f l = Some l' → ∀ x, x ∈ l → ∃ y, f x = Some y ∧ y ∈ l'.
Proof.
  revert l'. induction l as [|x l IH]; intros l' H y Hy; [by apply elem_of_nil in Hy|]. cbn [all_some] in H.
  destruct (f x) as [z|] eqn:E; cbn in H; [|done]. destruct (all_some f l) as [r|] eqn:E2; cbn in H; [|done]. injection H as <-.
  apply elem_of_cons in Hy as [-> |Hy]; [exists z; split; [done|left]|]. apply (IH r eq_refl) in Hy as (w & ? & ?). exists w. split; [done|by right].
Qed.
Lemma enc_map_names {V} (enc : V → option json) (m : gmap string V) (P : string → Prop) j :
  enc_map enc m = Some j → jall P j → ∀ k v, m !! k = Some v → P k ∧ ∃ w, enc v = Some w ∧ jall P w.
Proof.
  unfold enc_map. intros H Hj k v Hk. destruct (all_some _ _) as [l|] eqn:E; cbn in H; [|done]. injection H as <-.
  inversion Hj as [| | | | |? Hl]; subst. rewrite Forall_forall in Hl.
  destruct (all_some_elem _ _ _ E (k, v)) as (y & Hy & Hin).
  { rewrite sorted_entries_perm. by apply elem_of_map_to_list. }
  cbn in Hy. destruct (enc v) as [w|]; cbn in Hy; [|done]. injection Hy as <-. apply Hl in Hin as [? ?]. cbn in *. eauto.
Qed.

Section names.
  Context (ff : f64 → string) (off : Z → Z) (P : string → Prop).

  Lemma maps_names m l : maps_fields ff m = Some l → Forall (λ kv, P kv.1 ∧ jall P kv.2) l → maps_ok (λ _, True) m → maps_ok P m.
  Proof.
    unfold maps_fields. intros H Hl (H1 & H2 & H3 & H4).
    destruct (enc_map (enc_timer ff) _) as [a|] eqn:Ea; cbn in H; [|done]. destruct (enc_map (enc_float ff) _) as [b|] eqn:Eb; cbn in H; [|done].
    destruct (enc_map (λ n, Some (enc_int n)) _) as [c|] eqn:Ec; cbn in H; [|done]. destruct (enc_map enc_errc _) as [d|] eqn:Ed; cbn in H; [|done].
    injection H as <-. rewrite !Forall_cons in Hl. cbn in Hl. destruct Hl as ([_ A] & [_ B] & [_ C] & [_ D] & _).
    split_and!; intros k v Hk.
    - split; [by apply (enc_map_names _ _ _ _ Ea A k v)|by apply (H1 k v)].
    - split; [by apply (enc_map_names _ _ _ _ Eb B k v)|by apply (H2 k v)].
    - split; [by apply (enc_map_names _ _ _ _ Ec C k v)|by apply (H3 k v)].
    - split; [by apply (enc_map_names _ _ _ _ Ed D k v)|by apply (H4 k v)].
  Qed.
  Lemma job_names jb v : enc_job ff jb = Some v → jall P v → job_ok (λ _, True) jb → job_ok P jb.
  Proof.
    unfold enc_job. intros H Hv (H1 & H2). destruct (maps_fields ff (j_maps jb)) as [ms|] eqn:E; cbn in H; [|done].
    destruct (timer_fields ff (j_timer jb)) as [ts|]; cbn in H; [|done]. injection H as <-.
    inversion Hv as [| | | | |? Hl]; subst. apply Forall_app in Hl as [Hl _]. split; [|done]. by eapply maps_names.
  Qed.
  Lemma ia_names a v : enc_ia ff off a = Some v → jall P v → ia_ok (λ _, True) off a → ia_ok P off a.
  Proof.
    unfold enc_ia. intros H Hv (H1 & H2 & H3 & H4 & H5). destruct (enc_time off _) as [st|]; cbn in H; [|done].
    destruct (enc_map (enc_job ff) _) as [js|] eqn:Ej; cbn in H; [|done]. destruct (maps_fields ff (ia_maps a)) as [ms|] eqn:E; cbn in H; [|done].
    injection H as <-. inversion Hv as [| | | | |? Hl]; subst. rewrite !Forall_cons in Hl. destruct Hl as (_ & _ & [_ Hj] & Hl).
    split_and!; try done.
    - intros k jb Hk. cbn in Hj. destruct (enc_map_names _ _ _ _ Ej Hj k jb Hk) as (? & w & Ew & Hw).
      split; [done|]. eapply job_names; [exact Ew|exact Hw|]. by apply (H4 k jb).
    - by eapply maps_names.
  Qed.
End names.

Lemma any_admits : admits (λ _, True). Proof. intros s H. done. Qed.
Lemma thm_health_exact ff off msg inst dur l : float_codec ff → in_int64 dur → Forall (ia_ok (λ _, True) off) l →
  ∃ v, enc_health ff off inst dur l = Some v ∧
    (serve_health ff off msg "/health" inst dur l = (200, indented 0 v) ↔ no_percent inst ∧ Forall (ia_ok no_percent off) l).
Proof.
  intros Hff Hd Hl. destruct (health_passes ff off (λ _, True) Hff any_admits (λ _ _, 0%N) inst dur l I Hd Hl) as (v&H1&H2&_).
  exists v. split; [done|]. split.
  - unfold serve_health. rewrite bool_decide_true by done. rewrite H1. intros H. apply thm_page_exact in H; [|done].
    unfold enc_health in H1. destruct (all_some _ l) as [as_|] eqn:E; cbn in H1; [|done]. injection H1 as <-.
    inversion H as [| | | | |? Hv]; subst. rewrite !Forall_cons in Hv. destruct Hv as ([_ Hi] & _ & [_ Ha] & _). cbn in Hi, Ha.
    split; [by inversion Hi|]. apply Forall_forall. intros a Hin. destruct (all_some_elem _ _ _ E a Hin) as (w & Ew & Hw).
    inversion Ha as [| | | |? Haw|]; subst. rewrite Forall_forall in Haw. rewrite Forall_forall in Hl.
    eapply ia_names; [exact Ew|by apply Haw|by apply Hl].
  - intros [Hi Hn]. destruct (thm_health_body ff off msg inst dur l Hff Hi Hd Hn) as (v2 & _ & E & _ & Hs & _).
    rewrite H1 in E. injection E as <-. done.
Qed.
