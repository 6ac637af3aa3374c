(** * Proofs about reading JSON documents of any shape *)
From Verif Require Import SDecode PUtf8 PApi PWriter PNum PJson PSend PWire PWire2.

(** ** the last entry whose key satisfies a condition *)
Definition lastp {A} (P : string → Prop) (l : list (string * A)) (x : A) : Prop :=
  ∃ l1 k l2, l = l1 ++ (k, x) :: l2 ∧ P k ∧ ∀ k' x', (k', x') ∈ l2 → ¬ P k'.
Definition nonep {A} (P : string → Prop) (l : list (string * A)) : Prop := ∀ k x, (k, x) ∈ l → ¬ P k.
Lemma lastp_nil {A} P (x : A) : ¬ lastp P [] x.
Proof. intros (l1&k&l2&E&_). by destruct l1. Qed.
Lemma lastp_cons {A} P k (x y : A) l : lastp P ((k, x) :: l) y ↔ lastp P l y ∨ (nonep P l ∧ P k ∧ y = x).
Proof.
  split.
  - intros (l1&k'&l2&E&H1&H2). destruct l1 as [|z l1]; [injection E as -> -> ->; by right|].
    injection E as <- ->. left. by exists l1, k', l2.
  - intros [(l1&k'&l2&->&H1&H2)|(H1&H2&->)]; [by exists ((k, x) :: l1), k', l2|by exists [], k, l].
Qed.
Lemma nonep_cons {A} P k (x : A) l : nonep P ((k, x) :: l) ↔ ¬ P k ∧ nonep P l.
Proof.
  split; [intros H; split; [apply (H k x); by left|intros k' x' Hin; apply (H k' x'); by right]|].
  intros [H1 H2] k' x' [[= -> ->]|Hin]%elem_of_cons; [done|by eapply H2].
Qed.
Lemma nonep_lastp {A} P l (x : A) : nonep P l → ¬ lastp P l x.
Proof. intros H (l1&k&l2&->&H1&_). apply (H k x); [|done]. apply elem_of_app. right. by left. Qed.
Lemma last_of_lastp {A} k (l : list (string * A)) (x : A) : last_of k l x ↔ lastp (λ k', k' = k) l x.
Proof.
  split.
  - intros (l1&l2&->&H). exists l1, k, l2. split; [done|]. split; [done|]. intros k' x' Hin ->. by eapply H.
  - intros (l1&k'&l2&->&->&H). exists l1, l2. split; [done|]. intros x' Hin. by apply (H _ _ Hin).
Qed.

(** ** names *)
Lemma lower_same a b : Ascii.eqb (lower a) (lower b) = true ↔ same_letter a b.
Proof.
  rewrite Ascii.eqb_eq. unfold lower, within, same_letter.

  pose proof (zcode_bound a) as Ha. pose proof (zcode_bound b) as Hb.
  assert (I : ∀ c d, zcode c = zcode d → c = d) by (intros c d E; rewrite <-(zchar_zcode c), <-(zchar_zcode d); congruence).
  assert (U : ∀ n, 0 ≤ n < 256 → zcode (zchar n) = n) by (intros; by apply zcode_zchar).
  destruct (Z.leb_spec 65 (zcode a)), (Z.leb_spec (zcode a) 90), (Z.leb_spec 65 (zcode b)), (Z.leb_spec (zcode b) 90); cbn [andb].
  all: split; [intros E; try (apply (f_equal zcode) in E; rewrite ?U in E by lia)
              |intros [->|[?|?]]; try done; try lia; try (apply I; rewrite ?U by lia; lia)].
  all: first [by left; apply I; lia | right; lia | idtac].
Qed.
Lemma same_name_ok s t : same_name s t = true ↔ same_letters s t.
Proof.
  unfold same_letters. revert t. induction s as [|a s IH]; intros [|b t]; cbn [same_name list_ascii_of_string].
  - split; [intros _; constructor|done].
  - split; [done|by inversion 1].
  - split; [done|by inversion 1].
  - rewrite andb_true_iff, lower_same, IH. split; [intros [? ?]; by constructor|]. by inversion 1.
Qed.
Lemma no_later_ok name (l : list (string * json)) : existsb (λ kv, same_name kv.1 name) l = false ↔ nonep (λ k, same_letters k name) l.
Proof.
  rewrite <-not_true_iff_false, existsb_exists. split.
  - intros H k x Hin%elem_of_list_In Hs. apply H. exists (k, x). split; [done|]. by apply same_name_ok.
  - intros H ([k x]&Hin%elem_of_list_In&Hs). apply (H k x Hin). by apply same_name_ok.
Qed.
Lemma field_none name l : nonep (λ k, same_letters k name) l → field name l = JNull.
Proof.
  induction l as [|[k x] l IH]; [done|]. intros [H1 H2]%nonep_cons. cbn [field].
  destruct (same_name k name) eqn:E; [by apply same_name_ok in E|]. cbn [andb]. by apply IH.
Qed.
Lemma field_last name l v : lastp (λ k, same_letters k name) l v → field name l = v.
Proof.
  induction l as [|[k x] l IH]; [by intros H%lastp_nil|]. cbn [field]. intros [H|(H1&H2&->)]%lastp_cons.
  - destruct (existsb _ l) eqn:E; [rewrite andb_false_r; by apply IH|]. apply no_later_ok in E. by apply (nonep_lastp _ _ v) in E.
  - apply no_later_ok in H1. rewrite H1. apply same_name_ok in H2. by rewrite H2.
Qed.
Lemma field_cases name (l : list (string * json)) : nonep (λ k, same_letters k name) l ∨ ∃ v, lastp (λ k, same_letters k name) l v.
Proof.
  induction l as [|[k x] l [IH|[v IH]]].
  - left. intros k x H. by apply elem_of_nil in H.
  - destruct (same_name k name) eqn:E.
    + right. exists x. apply lastp_cons. right. split; [done|]. split; [by apply same_name_ok|done].
    + left. apply nonep_cons. split; [|done]. intros H%same_name_ok. congruence.
  - right. exists v. apply lastp_cons. by left.
Qed.
Lemma member_ok name l v : member name l v ↔ field name l = v.
Proof.
  split.
  - intros [H|[H ->]]; [by apply field_last|by apply field_none].
  - intros <-. destruct (field_cases name l) as [H|[v H]].
    + right. split; [done|]. by apply field_none.
    + left. rewrite (field_last _ _ _ H). done.
Qed.
Lemma has_ok {A} name (R : json → A → Prop) dec l x : (∀ v x, dec v = Some x ↔ R v x) → dec (field name l) = Some x ↔ has name R l x.
Proof.
  intros H. rewrite H. split; [intros HR; exists (field name l); split; [by apply member_ok|done]|]. intros (v&<-%member_ok&HR). done.
Qed.
Lemma members_ok v l : members v = Some l ↔ with_members v l.
Proof.
  split; [|by intros [->|[-> ->]]]. destruct v; try done; cbn; intros E; injection E as <-; [by right|by left].
Qed.

(** ** scalars *)
Lemma digit_of_ok c : digit_of c = if is_digit c then Some (zcode c - 48) else None.
Proof.
  reflexivity.
Qed.
Lemma parse_digits_all t : ∀ acc, parse_digits acc t = if String.eqb (digits t).2 "" then Some (nat_value acc t) else None.
Proof.
  induction t as [|c t IH]; intros acc; [done|]. cbn [digits parse_digits nat_value]. rewrite digit_of_ok. destruct (is_digit c); [|done].
  rewrite IH. destruct (digits t) as [a b]. cbn [snd]. destruct (String.eqb b ""); [|done]. do 2 f_equal. lia.
Qed.
Lemma numeral_value s n : (all_digits s = true ∧ nat_value 0 s = n) ↔ numeral s n.
Proof.
  rewrite numeral_parse, parse_digits_all. unfold all_digits. destruct (digits s) as [a b] eqn:D. cbn [snd].
  destruct (digits_sound _ _ _ D) as [-> _]. destruct (String.eqb_spec b "") as [->|Hb].
  - rewrite sapp_nil_r. destruct a; [split; [by intros [? _]|by intros [? _]]|]. split; [intros [_ ->]; done|]. intros [_ E]. split; [done|]. congruence.
  - destruct a, b; split; try done; try (by intros [? _]); by intros [_ ?].
Qed.
Lemma int64_ok v n : dec_int64 v = Some n ↔ an_int v n.
Proof.
  unfold an_int. split.
  - destruct v as [|b|s|s|l|l]; try done; cbn [dec_int64]; [intros [= <-]; by left|]. intros H. right. exists s. split; [done|].
    unfold MNum.parse_int in H. destruct (MNum.minus s) as [neg d] eqn:M. destruct (all_digits d) eqn:A; [|done].
    destruct (Z.leb_spec (- 2 ^ 63) (if neg then - nat_value 0 d else nat_value 0 d)); [|done].
    destruct (Z.ltb_spec (if neg then - nat_value 0 d else nat_value 0 d) (2 ^ 63)); [|done]. injection H as <-.
    split; [unfold in_int64; lia|]. unfold MNum.minus in M. destruct s as [|c s]; [injection M as <- <-; by left; apply numeral_value|].
    destruct (Ascii.eqb_spec c "-") as [->|]; injection M as <- <-.
    + right. exists s. split; [done|]. apply numeral_value. split; [done|lia].
    + left. by apply numeral_value.
  - intros [[-> ->]|(s&->&Hr&H)]; [done|]. cbn [dec_int64]. unfold MNum.parse_int, in_int64 in *. destruct H as [H|(t&->&H)].
    + pose proof (not_digit_sign s n 45%N ltac:(by left) H) as Hs. apply numeral_value in H as [H1 H2].
      assert (MNum.minus s = (false, s)) as ->.
      { destruct s as [|c s]; [done|]. cbn [MNum.minus]. destruct (Ascii.eqb_spec c "-") as [->|]; [|done]. by destruct (Hs _ _ eq_refl). }
      rewrite H1, H2. destruct (Z.leb_spec (- 2 ^ 63) n), (Z.ltb_spec n (2 ^ 63)); try lia. done.
    + rewrite sapp_one. cbn [MNum.minus Ascii.eqb Bool.eqb]. apply numeral_value in H as [H1 H2]. rewrite H1, H2, Z.opp_involutive.
      destruct (Z.leb_spec (- 2 ^ 63) n), (Z.ltb_spec n (2 ^ 63)); try lia. done.
Qed.
Lemma float_ok' v f : dec_float v = Some f ↔ a_float v f.
Proof.
  unfold a_float. split.
  - destruct v; try done; cbn [dec_float]; [intros [= <-]; by left|]. intros H. right. by eexists.
  - by intros [[-> ->]|(s&->&H)].
Qed.
Lemma str_ok v s : dec_str v = Some s ↔ a_text v s.
Proof.
  unfold a_text. split.
  - destruct v; try done; cbn [dec_str]; intros [= <-]; [by left|by right].
  - by intros [[-> ->]| ->].
Qed.
Lemma time_ok v p : dec_time v = Some p ↔ a_time v p.1 p.2.
Proof.
  unfold a_time. destruct p as [t off]. cbn [fst snd]. split.
  - destruct v; try done; cbn [dec_time]; [intros [= <- <-]; by left|]. intros H. right. by eexists.
  - by intros [(->&->&->)|(s&->&H)].
Qed.

(** ** maps *)
Lemma fold_insert_lookup {V} (l : list (string * V)) : ∀ (m : gmap string V) k y,
  fold_left (λ m kv, <[kv.1 := kv.2]> m) l m !! k = Some y ↔ lastp (λ k', k' = k) l y ∨ (nonep (λ k', k' = k) l ∧ m !! k = Some y).
Proof.
  induction l as [|[k0 x] l IH]; intros m k y; cbn [fold_left].
  - split; [intros H; right; split; [|done]; intros ?? Hin; by apply elem_of_nil in Hin|]. by intros [H%lastp_nil|[_ H]].
  - rewrite IH, lastp_cons, nonep_cons. cbn [fst snd]. destruct (decide (k0 = k)) as [->|Hne].
    + rewrite lookup_insert. split; [intros [H|[H [= ->]]]; [by left; left|by left; right]|].
      intros [[H|(H&_&->)]|[[H _] _]]; [by left|by right|done].
    + rewrite lookup_insert_ne by done. tauto.
Qed.
Lemma lastp_forall2 {A B} (R : A → B → Prop) P (l : list (string * A)) (r : list (string * B)) :
  Forall2 (λ a b, b.1 = a.1 ∧ R a.2 b.2) l r →
  (nonep P l ↔ nonep P r) ∧ (∀ x, lastp P l x → ∃ y, lastp P r y ∧ R x y) ∧ (∀ y, lastp P r y → ∃ x, lastp P l x ∧ R x y).
Proof.
  induction 1 as [|[k x] [k' y] l r [E HR] _ (I1&I2&I3)].
  - split; [|split; intros ? H; by apply lastp_nil in H]. split; intros _ ?? H; by apply elem_of_nil in H.
  - cbn [fst snd] in *. subst k'. split; [by rewrite !nonep_cons, I1|]. split.
    + intros z [H|(H1&H2&->)]%lastp_cons; [destruct (I2 _ H) as (w&W1&W2); exists w; split; [apply lastp_cons; by left|done]|].
      exists y. split; [apply lastp_cons; right|done]. by rewrite <-I1.
    + intros z [H|(H1&H2&->)]%lastp_cons; [destruct (I3 _ H) as (w&W1&W2); exists w; split; [apply lastp_cons; by left|done]|].
      exists x. split; [apply lastp_cons; right|done]. by rewrite I1.
Qed.
Lemma map_ok {V} (dec : json → option V) (R : json → V → Prop) v m : (∀ v x, dec v = Some x ↔ R v x) → dec_map dec v = Some m ↔ a_map R v m.
Proof.
  intros HR. unfold dec_map, a_map. split.
  - destruct (members v) as [l|] eqn:M; [|done]. cbn [bind]. destruct (all_some _ l) as [r|] eqn:A; [|done]. cbn [bind]. intros [= <-].
    exists l. split; [by apply members_ok|]. apply all_some_forall2 in A.
    assert (F : Forall2 (λ a b : string * _, b.1 = a.1 ∧ R a.2 b.2) l r).
    { eapply Forall2_impl; [exact A|]. intros [k x] [k' y]. cbn [fst snd]. destruct (dec x) as [z|] eqn:D; [|done]. cbn [bind]. intros [= <- <-]. split; [done|]. by apply HR. }
    split.
    + intros k x Hin. clear A M. induction F as [|[k1 x1] [k2 y2] l r [_ H] _ IH]; [by apply elem_of_nil in Hin|].
      apply elem_of_cons in Hin as [[= -> ->]|Hin]; [by eexists|by apply IH].
    + intros k y. rewrite fold_insert_lookup, lookup_empty. destruct (lastp_forall2 R (λ k', k' = k) l r F) as (_&F2&F3). split.
      * intros [H|[_ ?]]; [|done]. destruct (F3 _ H) as (x&H1&H2). exists x. split; [by apply last_of_lastp|done].
      * intros (x&H1%last_of_lastp&H2). left. destruct (F2 _ H1) as (y'&H3&H4). apply HR in H2, H4. congruence.
  - intros (l&M&H1&H2). apply members_ok in M. rewrite M. cbn [bind].
    assert (∃ r, all_some (λ kv : string * json, x ←o dec kv.2; Some (kv.1, x)) l = Some r) as [r A].
    { clear M H2. induction l as [|[k x] l IH]; [by eexists|]. destruct (H1 k x ltac:(by left)) as [y Hy%HR].
      destruct IH as [r Er]; [intros k' x' Hin; apply (H1 k' x'); by right|]. cbn [all_some fst snd]. rewrite Hy. cbn [bind]. rewrite Er. by eexists. }
    rewrite A. cbn [bind]. f_equal. apply map_eq. intros k. apply all_some_forall2 in A.
    assert (F : Forall2 (λ a b : string * _, b.1 = a.1 ∧ R a.2 b.2) l r).
    { eapply Forall2_impl; [exact A|]. intros [k' x] [k'' y]. cbn [fst snd]. destruct (dec x) as [z|] eqn:D; [|done]. cbn [bind]. intros [= <- <-]. split; [done|]. by apply HR. }
    destruct (lastp_forall2 R (λ k', k' = k) l r F) as (_&F2&F3).
    apply option_eq. intros y. rewrite fold_insert_lookup, lookup_empty, H2. split.
    + intros [H|[_ ?]]; [|done]. destruct (F3 _ H) as (x&H3&H4). exists x. split; [by apply last_of_lastp|done].
    + intros (x&H3%last_of_lastp&H4). left. destruct (F2 _ H3) as (y'&H5&H6). apply HR in H4, H6. congruence.
Qed.
Lemma ptr_map_ok {V} (dec : json → option V) (R : json → V → Prop) v m (b : bool) : (∀ v x, dec v = Some x ↔ R v x) →
  dec_ptr_map dec v = Some (m, b) ↔ a_ptr_map R v m (b = true).
Proof.
  intros HR. unfold dec_ptr_map. set (d := λ x : json, _).
  set (R' := λ x (o : option V), match o with None => x = JNull | Some y => x ≠ JNull ∧ R x y end).
  assert (HR' : ∀ v x, d v = Some x ↔ R' v x).
  { intros x o. unfold d, R'. destruct x; try (destruct (dec _) as [y|] eqn:D; cbn [bind];
      [apply HR in D; split; [intros [= <-]; split; [done|by apply D]|destruct o as [z|]; [intros [_ Hz%HR]; apply HR in D; congruence|done]]
      |split; [done|destruct o as [z|]; [intros [_ Hz%HR]; congruence|done]]]).
    split; [by intros [= <-]|]. destruct o; [by intros [? _]|done]. }
  assert (N : ∀ m0 : gmap string (option V), existsb (λ kv : string * option V, match kv.2 with None => true | Some _ => false end) (map_to_list m0) = true ↔ ∃ k, m0 !! k = Some None).
  { intros m0. rewrite existsb_exists. split.
    - intros ([k [?|]]&H1%elem_of_list_In%elem_of_map_to_list&H2); [done|by exists k].
    - intros [k Hk]. exists (k, None). split; [by apply elem_of_list_In, elem_of_map_to_list|done]. }
  split.
  - destruct (dec_map d v) as [m0|] eqn:D; [|done]. cbn [bind]. intros E. injection E as <- E. apply (map_ok d R' v m0 HR') in D as (l&M&H1&H2).
    exists l. split; [done|]. split; [intros k x Hin; destruct (H1 k x Hin) as [[y|] Hy]; [right; exists y; apply Hy|by left]|]. split.
    + intros k y. rewrite lookup_omap_id_Some, H2. done.
    + rewrite <-E, N. split; intros [k Hk]; exists k.
      * apply H2 in Hk as (x&H3&H4). cbn in H4. by subst x.
      * apply H2. by exists JNull.
  - intros (l&M&H1&H2&H3).
    destruct (dec_map d v) as [m0|] eqn:D; cbn [bind].
    + apply (map_ok d R' v m0 HR') in D as (l'&M'&H1'&H2'). apply members_ok in M, M'. assert (l' = l) as -> by congruence. f_equal. f_equal.
      * apply map_eq. intros k. apply option_eq. intros y. rewrite lookup_omap_id_Some, H2', H2. done.
      * apply eq_true_iff_eq. rewrite N, H3. split; intros [k Hk]; exists k.
        -- apply H2' in Hk as (x&H4&H5). cbn in H5. by subst x.
        -- apply H2'. by exists JNull.
    + exfalso. unfold dec_map in D. apply members_ok in M. rewrite M in D. cbn [bind] in D.
      destruct (all_some (λ kv : string * json, x ←o d kv.2; Some (kv.1, x)) l) as [r|] eqn:A; [done|].
      assert (is_Some (all_some (λ kv : string * json, x ←o d kv.2; Some (kv.1, x)) l)) as [? ?]; [|congruence].
      apply all_some_iff, Forall_forall. intros [k x] Hin. cbn [fst snd]. destruct (H1 k x Hin) as [->|[y Hy]]; [by eexists|].
      assert (∃ o, d x = Some o) as [o ->]; [|by eexists].
      assert (x = JNull ∨ x ≠ JNull) as [->|Hn] by (destruct x; first [by left|by right]); [by eexists|]. exists (Some y). apply HR'. done.
Qed.

(** ** objects *)
Ltac binds H := repeat match type of H with bind ?e _ = Some _ => let E := fresh "E" in destruct e eqn:E; [cbn [bind] in H|done] end.
Ltac unbinds := repeat match goal with E : _ = Some _ |- bind _ _ = Some _ => rewrite E; cbn [bind]; clear E end.
Lemma int_in name l n : has name an_int l n ↔ dec_int64 (field name l) = Some n.
Proof. symmetry. apply has_ok, int64_ok. Qed.
Lemma float_in name l n : has name a_float l n ↔ dec_float (field name l) = Some n.
Proof. symmetry. apply has_ok, float_ok'. Qed.
Lemma text_in name l n : has name a_text l n ↔ dec_str (field name l) = Some n.
Proof. symmetry. apply has_ok, str_ok. Qed.
Lemma timer_fields_ok l t : dec_timer_fields l = Some t ↔ timer_in l t.
Proof.
  unfold timer_in, dec_timer_fields. rewrite !int_in, !float_in. split.
  - intros H. binds H. injection H as <-. done.
  - intros H. decompose [and] H. unbinds. by destruct t.
Qed.
Lemma timer_ok v t : dec_timer v = Some t ↔ a_timer v t.
Proof.
  unfold dec_timer, a_timer. split.
  - intros H. binds H. exists l. split; [by apply members_ok|by apply timer_fields_ok].
  - intros (l&H1%members_ok&H2%timer_fields_ok). by rewrite H1.
Qed.
Lemma errc_ok v c : dec_errc v = Some c ↔ an_errc v c.
Proof.
  unfold dec_errc, an_errc. split.
  - intros H. binds H. injection H as <-. exists l. split; [by apply members_ok|]. split; [by apply int_in|done].
  - intros (l&H1%members_ok&H2%int_in&H3&H4). rewrite H1. cbn [bind]. rewrite H2. cbn [bind]. destruct c. cbn in H3, H4. by subst.
Qed.
Lemma ptr_in {V} (dec : json → option V) (R : json → V → Prop) name l m b : (∀ v x, dec v = Some x ↔ R v x) →
  dec_ptr_map dec (field name l) = Some (m, b) ↔ ∃ v, member name l v ∧ a_ptr_map R v m (b = true).
Proof.
  intros HR. rewrite (ptr_map_ok dec R) by done. split; [intros H; exists (field name l); split; [by apply member_ok|done]|].
  by intros (v&<-%member_ok&H).
Qed.
Lemma ptr_map_nil {V} (R : json → V → Prop) v m (n n' : Prop) : (n ↔ n') → a_ptr_map R v m n → a_ptr_map R v m n'.
Proof. intros E (l&H1&H2&H3&H4). exists l. by rewrite <-E. Qed.
Lemma ptr_map_bool {V} (dec : json → option V) (R : json → V → Prop) v m (n : Prop) : (∀ v x, dec v = Some x ↔ R v x) →
  a_ptr_map R v m n → ∃ b : bool, (b = true ↔ n) ∧ dec_ptr_map dec v = Some (m, b).
Proof.
  intros HR H. assert (n ∨ ¬ n) as D.
  { destruct H as (l&_&_&_&H). rewrite H. clear. induction l as [|[k x] l IH].
    - right. intros [k Hk%last_of_lastp]. by apply lastp_nil in Hk.
    - destruct IH as [[k' IH%last_of_lastp]|IH]; [left; exists k'; apply last_of_lastp, lastp_cons; by left|].
      assert (x = JNull ∨ x ≠ JNull) as [->|Hn] by (destruct x; first [by left|by right]).
      + destruct (decide (Exists (λ kv, kv.1 = k) l)) as [Hex|Hex].
        * right. intros [k' Hk%last_of_lastp]. apply lastp_cons in Hk as [Hk|(Hk&->&_)]; [apply IH; exists k'; by apply last_of_lastp|].
          apply Exists_exists in Hex as ([k1 x1]&Hin&E). by apply (Hk _ _ Hin).
        * left. exists k. apply last_of_lastp, lastp_cons. right. split; [|done]. intros k1 x1 Hin E. apply Hex, Exists_exists. by exists (k1, x1).
      + right. intros [k' Hk%last_of_lastp]. apply lastp_cons in Hk as [Hk|(_&_&Hk)]; [apply IH; exists k'; by apply last_of_lastp|congruence]. }
  destruct D as [D|D].
  - exists true. split; [done|]. apply (ptr_map_ok dec R); [done|]. by eapply ptr_map_nil; [|exact H].
  - exists false. split; [done|]. apply (ptr_map_ok dec R); [done|]. by eapply ptr_map_nil; [|exact H].
Qed.
Lemma maps_ok l m (b : bool) : dec_maps l = Some (m, b) ↔ maps_in l m (b = true).
Proof.
  unfold dec_maps, maps_in. split.
  - intros H. binds H. injection H as <- <-. destruct p as [ts b1], p0 as [xs b2]. cbn [fst snd am_timers am_gauges am_events am_errs].
    exists (b1 = true), (b2 = true). split; [by apply (ptr_in dec_timer a_timer _ _ _ _ timer_ok)|].
    split; [apply (has_ok _ _ (dec_map dec_float)); [intros; apply map_ok, float_ok'|done]|].
    split; [apply (has_ok _ _ (dec_map dec_int64)); [intros; apply map_ok, int64_ok|done]|].
    split; [by apply (ptr_in dec_errc an_errc _ _ _ _ errc_ok)|]. by rewrite orb_true_iff.
  - intros (n1&n2&(v1&M1&H1)&H2&H3&(v2&M2&H4)&Hn). apply member_ok in M1, M2. subst v1 v2.
    apply (ptr_map_bool dec_timer _ _ _ _ timer_ok) in H1 as (b1&B1&H1). apply (ptr_map_bool dec_errc _ _ _ _ errc_ok) in H4 as (b2&B2&H4).
    apply (has_ok _ _ (dec_map dec_float)) in H2; [|intros; apply map_ok, float_ok']. apply (has_ok _ _ (dec_map dec_int64)) in H3; [|intros; apply map_ok, int64_ok].
    unbinds. cbn [fst snd]. destruct m as [m1 m2 m3 m4]. cbn [am_timers am_gauges am_events am_errs]. do 2 f_equal. apply eq_true_iff_eq. rewrite orb_true_iff. tauto.
Qed.
Lemma job_ok' v jb : dec_job v = Some jb ↔ a_job_flag v jb.
Proof.
  destruct jb as [j b]. unfold dec_job, a_job_flag, a_job. cbn [fst snd]. split.
  - intros H. binds H. injection H as <- <-. destruct p as [m b]. cbn [fst snd j_maps j_timer j_success j_verror j_panic j_error j_junk].
    exists l. rewrite !int_in, <-timer_fields_ok, <-maps_ok. split_and!; try done. by apply members_ok.
  - intros (l&H). rewrite !int_in, <-timer_fields_ok, <-maps_ok, <-members_ok in H. decompose [and] H. unbinds. by destruct j.
Qed.
Lemma interval_ok loc v x : dec_ia loc v = Some x ↔ an_interval loc v x.
Proof.
  assert (E : ∀ l, dec_ia loc (JObj l) =
    (t ←o dec_time (field "interval_start" l); n ←o dec_int64 (field "serial_number" l);
      js ←o dec_ptr_map dec_job (field "jobs" l);
      ms ←o dec_maps l;
      Some (Some (DAgg (loc t.2) (IA t.1 n (fst <$> js.1) ms.1)
        (js.2 || ms.2 || existsb (λ kv : string * (jobagg * bool), kv.2.2) (map_to_list js.1)))))) by done.
  assert (N : ∀ js : gmap string (jobagg * bool), existsb (λ kv : string * (jobagg * bool), kv.2.2) (map_to_list js) = true ↔ ∃ k j, js !! k = Some (j, true)).
  { intros js. rewrite existsb_exists. split.
    - intros ([k [j b]]&H1%elem_of_list_In%elem_of_map_to_list&H2). cbn in H2. subst b. by exists k, j.
    - intros (k&j&Hk). exists (k, (j, true)). split; [by apply elem_of_list_In, elem_of_map_to_list|done]. }
  split.
  - destruct v as [|b|s|s|a|l]; try done; [by intros [= <-]|]. rewrite E. intros H. binds H. injection H as <-.
    destruct p as [t off], p0 as [js b1], p1 as [m b2]. cbn [fst snd an_interval d_ia d_loc d_null ia_start ia_serial ia_jobs ia_maps].
    exists l, t, off, js, (b1 = true), (b2 = true). split; [done|].
    split; [exists (field "interval_start" l); split; [by apply member_ok|by apply time_ok in E0]|]. split; [by apply int_in|].
    split; [by apply (ptr_in dec_job _ _ _ _ _ job_ok')|]. split; [by apply maps_ok|]. split_and!; try done.
    rewrite !orb_true_iff. pose proof (N js). tauto.
  - destruct x as [d|]; [|by intros ->]. cbn [an_interval].
    intros (l&t&off&js&n1&n2&->&(u&Mu&Ht)&Hn&(w&Mw&Hj)&(n3&n4&Hm)&H1&H2&H3&H4). rewrite E. apply member_ok in Mu, Mw. subst u w.
    apply (time_ok _ (t, off)) in Ht. apply int_in in Hn. apply (ptr_map_bool dec_job _ _ _ _ job_ok') in Hj as (b1&B1&Hj).
    assert (∃ b2 : bool, (b2 = true ↔ n2) ∧ dec_maps l = Some (ia_maps (d_ia d), b2)) as (b2&B2&Hm').
    { destruct Hm as ((v1&M1&J1)&J2&J3&(v2&M2&J4)&Hn').
      destruct (ptr_map_bool dec_timer _ _ _ _ timer_ok J1) as (c1&C1&K1). destruct (ptr_map_bool dec_errc _ _ _ _ errc_ok J4) as (c2&C2&K4).
      exists (c1 || c2). split; [rewrite orb_true_iff; tauto|]. apply maps_ok. exists n3, n4. split; [by exists v1|]. split; [done|]. split; [done|].
      split; [by exists v2|]. rewrite orb_true_iff. tauto. }
    rewrite Ht; cbn [bind]; rewrite Hn; cbn [bind]; rewrite Hj; cbn [bind]; rewrite Hm'; cbn [bind fst snd]. destruct d as [lc [st sn jo ma] nl]. cbn in *. subst. do 3 f_equal.
    apply eq_true_iff_eq. rewrite !orb_true_iff. pose proof (N js). tauto.
Qed.
Lemma intervals_ok loc a : ∀ i xs, dec_ias loc i a = Some xs ↔
  length xs = length a ∧ ∀ n x z, a !! n = Some x → xs !! n = Some z → an_interval (loc (i + n)%nat) x z.
Proof.
  induction a as [|v a IH]; intros i xs; cbn [dec_ias].
  - split; [by intros [= <-]|]. intros [H _]. by destruct xs.
  - split.
    + intros H. binds H. injection H as <-. apply IH in E0 as [L E0]. split; [cbn [length]; by rewrite L|]. intros [|n] x z; cbn.
      * intros [= <-] [= <-]. rewrite Nat.add_0_r. by apply interval_ok.
      * intros H1 H2. replace (i + S n)%nat with (S i + n)%nat by lia. by eapply E0.
    + intros [L H]. destruct xs as [|z xs]; [done|]. assert (dec_ia (loc i) v = Some z) as ->.
      { apply interval_ok. rewrite <-(Nat.add_0_r i). by apply (H 0%nat). }
      cbn [bind]. assert (dec_ias loc (S i) a = Some xs) as ->; [|done]. apply IH. split; [by injection L|]. intros n x' z' H1 H2.
      replace (S i + n)%nat with (i + S n)%nat by lia. by apply (H (S n)).
Qed.
Lemma answer_ok loc v y : dec_reply loc v = Some y ↔ an_answer loc v y.
Proof.
  unfold dec_reply, an_answer. split.
  - intros H. binds H. injection H as <-. cbn [y_inst y_dur y_aggs]. exists l, (field "aggregations" l).
    split; [by apply members_ok|]. split; [by apply text_in|]. split; [by apply int_in|]. split; [by apply member_ok|].
    destruct (field "aggregations" l); try done; [injection E2 as <-; by left|]. right. eexists. split; [done|]. by apply (intervals_ok loc _ 0).
  - intros (l&u&H1%members_ok&H2%text_in&H3%int_in&H4%member_ok&H5). subst u.
    assert (match field "aggregations" l with JArr a => dec_ias loc 0 a | JNull => Some [] | _ => None end = Some (y_aggs y)) as H6.
    { destruct H5 as [[-> ->]|(a&->&H5)]; [done|]. by apply intervals_ok. }
    unbinds. by destruct y.
Qed.

(** ** pages *)
Lemma job_row_ok v x : dec_ajob v = Some x ↔ a_job_row v x.
Proof.
  split.
  - destruct v as [|b|s|s|a|l]; try done; [by intros [= <-]|]. unfold dec_ajob. cbn [members bind]. intros H. binds H. injection H as <-.
    exists l. cbn [aj_name aj_count aj_success aj_verror aj_panic aj_error aj_junk aj_sum aj_ss aj_min aj_max aj_avg aj_stddev].
    by rewrite !int_in, !float_in, !text_in.
  - destruct x as [r|]; [|by intros ->]. intros (l&->&H). rewrite !int_in, !float_in, !text_in in H. decompose [and] H.
    unfold dec_ajob. cbn [members bind]. unbinds. by destruct r.
Qed.
Lemma host_row_ok v x : dec_host v = Some x ↔ a_host_row v x.
Proof.
  assert (T : ∀ name l t, has name an_instant l t ↔ ∃ off, dec_time (field name l) = Some (t, off)).
  { intros name l t. unfold has, an_instant. split.
    - intros (u&<-%member_ok&off&H). exists off. by apply time_ok.
    - intros (off&H%time_ok). exists (field name l). split; [by apply member_ok|by exists off]. }
  split.
  - destruct v as [|b|s|s|a|l]; try done; [by intros [= <-]|]. unfold dec_host. cbn [members bind]. intros H. binds H. injection H as <-.
    destruct p as [t1 o1], p0 as [t2 o2], p1 as [t3 o3].
    exists l. cbn [hs_hp hs_check hs_inst hs_dur hs_err hs_nanos hs_code hs_first hs_last fst].
    rewrite !int_in, !text_in, !T. split_and!; try done; by eexists.
  - destruct x as [r|]; [|by intros ->]. intros (l&->&H). rewrite !int_in, !text_in, !T in H.
    destruct H as (H1&(o1&H2)&H3&H4&H5&H6&H7&(o2&H8)&(o3&H9)). unfold dec_host. cbn [members bind]. unbinds. by destruct r.
Qed.
Lemma page_ok {A} name (dec : json → option A) R v rows : (∀ v x, dec v = Some x ↔ R v x) → dec_rows name dec v = Some rows ↔ a_page name R v rows.
Proof.
  intros HR. unfold dec_rows, a_page. assert (F : ∀ a l, all_some dec a = Some l ↔ Forall2 R a l).
  { intros a l. rewrite all_some_forall2. split; intros H; (eapply Forall2_impl; [exact H|]); intros; by apply HR. }
  split.
  - intros H. binds H. exists l, (field name l). split; [by apply members_ok|]. split; [eexists; by apply text_in|]. split; [eexists; by apply int_in|].
    split; [by apply member_ok|]. destruct (field name l); try done; [injection H as <-; by left|]. right. eexists. split; [done|]. by apply F.
  - intros (l&u&H1%members_ok&[s H2%text_in]&[n H3%int_in]&H4%member_ok&H5). subst u. unbinds.
    destruct H5 as [[-> ->]|(a&->&H5)]; [done|]. by apply F.
Qed.

(** ** the theorems *)
Lemma thm_answer loc code nanos x part v body : json_text v body →
  (∀ y, fetch_of loc code nanos x part body = FReply code nanos y ↔ an_answer loc v y) ∧
  ((¬ ∃ y, an_answer loc v y) → fetch_of loc code nanos x part body = FDecode code nanos x part).
Proof.
  intros H%parse_complete. unfold fetch_of. rewrite H. cbn [bind]. split.
  - intros y. rewrite <-answer_ok. destruct (dec_reply loc v) as [y'|]; split; intros E; congruence.
  - intros N. destruct (dec_reply loc v) as [y|] eqn:E; [|done]. destruct N. exists y. by apply answer_ok.
Qed.
Lemma thm_page {A} name (dec : json → option A) R x body now v : (∀ v x, dec v = Some x ↔ R v x) → json_text v body →
  (∀ rows, top_event name dec x body now = TResponse rows now ↔ a_page name R v rows) ∧
  ((¬ ∃ rows, a_page name R v rows) → top_event name dec x body now = TError x now).
Proof.
  intros HR H%parse_complete. unfold top_event. rewrite H. cbn [bind]. split.
  - intros y. rewrite <-(page_ok name dec R) by done. destruct (dec_rows name dec v) as [y'|]; split; intros E; congruence.
  - intros N. destruct (dec_rows name dec v) as [y|] eqn:E; [|done]. destruct N. exists y. by apply (page_ok name dec R).
Qed.

(** ** the order of the members, and members of other names *)
Lemma same_letter_trans a b c : same_letter a b → same_letter b c → same_letter a c.
Proof. intros H1%lower_same H2%lower_same. apply lower_same. rewrite Ascii.eqb_eq in *. congruence. Qed.
Lemma same_letter_sym a b : same_letter a b → same_letter b a.
Proof. intros H1%lower_same. apply lower_same. rewrite Ascii.eqb_eq in *. congruence. Qed.
Lemma same_letters_trans s t u : same_letters s t → same_letters t u → same_letters s u.
Proof.
  unfold same_letters. generalize (list_ascii_of_string s), (list_ascii_of_string t), (list_ascii_of_string u). intros a b c H. revert c.
  induction H; inversion 1; subst; constructor; eauto using same_letter_trans.
Qed.
Lemma same_letters_sym s t : same_letters s t → same_letters t s.
Proof. unfold same_letters. induction 1; constructor; eauto using same_letter_sym. Qed.
Lemma one_each_member l name v : one_each l →
  member name l v ↔ (∃ k, (k, v) ∈ l ∧ same_letters k name) ∨ ((∀ k' v', (k', v') ∈ l → ¬ same_letters k' name) ∧ v = JNull).
Proof.
  intros H. unfold member. split.
  - intros [(l1&k&l2&->&H1&_)|H1]; [left|by right]. exists k. split; [apply elem_of_app; right; by left|done].
  - intros [(k&Hin&H1)|H1]; [left|by right]. apply elem_of_list_split in Hin as (l1&l2&->). exists l1, k, l2. split; [done|]. split; [done|].
    intros k' v' Hin Hs. apply elem_of_list_lookup in Hin as [i Hi].
    assert (length l1 = (length l1 + S i)%nat); [|lia].
    eapply (H _ _ k k' v v'); [by rewrite list_lookup_middle| |eapply same_letters_trans; [exact H1|by apply same_letters_sym]].
    rewrite lookup_app_r by lia. by replace (length l1 + S i - length l1)%nat with (S i) by lia.
Qed.
Lemma one_each_perm l l' : l ≡ₚ l' → one_each l → one_each l'.
Proof.
  intros (Hl&f&Hf&Hp)%symmetry%Permutation_inj H i j k k' v v' Hi Hj Hs. apply Hf. rewrite Hp in Hi, Hj. by eapply H.
Qed.
Lemma member_perm l l' name v : l ≡ₚ l' → one_each l → member name l v ↔ member name l' v.
Proof.
  intros Hp H. rewrite (one_each_member l), (one_each_member l') by (try done; by eapply one_each_perm).
  assert (E : ∀ x, x ∈ l ↔ x ∈ l') by (intros x; by rewrite Hp). setoid_rewrite E. done.
Qed.
Lemma thm_order loc l l' y : l ≡ₚ l' → one_each l → an_answer loc (JObj l) y ↔ an_answer loc (JObj l') y.
Proof.
  assert (D : ∀ l l', l ≡ₚ l' → one_each l → an_answer loc (JObj l) y → an_answer loc (JObj l') y).
  { intros l1 l2 Hp H (l0&u&[[= <-]|[? _]]&H1&H2&H3&H4); [|done]. exists l2, u. split; [by left|].
    destruct H1 as (w1&M1&H1), H2 as (w2&M2&H2). split; [exists w1; by rewrite <-(member_perm l1 l2)|]. split; [exists w2; by rewrite <-(member_perm l1 l2)|].
    by rewrite <-(member_perm l1 l2). }
  intros Hp H. split; apply D; try done. by eapply one_each_perm.
Qed.
Lemma member_drop name k x l1 l2 v : ¬ same_letters k name → member name (l1 ++ (k, x) :: l2) v ↔ member name (l1 ++ l2) v.
Proof.
  intros Hk. rewrite !member_ok. assert (field name (l1 ++ (k, x) :: l2) = field name (l1 ++ l2)) as ->; [|done].
  assert (Hf : same_name k name = false) by (destruct (same_name k name) eqn:E; [by apply same_name_ok in E|done]).
  assert (E : existsb (λ kv, same_name kv.1 name) (l1 ++ (k, x) :: l2) = existsb (λ kv, same_name kv.1 name) (l1 ++ l2)).
  { rewrite !existsb_app. cbn [existsb fst]. by rewrite Hf. }
  induction l1 as [|[k1 x1] l1 IH]; [cbn [app field]; by rewrite Hf|]. cbn [app field].
  assert (E' : existsb (λ kv, same_name kv.1 name) (l1 ++ (k, x) :: l2) = existsb (λ kv, same_name kv.1 name) (l1 ++ l2)).
  { rewrite !existsb_app. cbn [existsb fst]. by rewrite Hf. }
  rewrite E', IH by done. done.
Qed.
Lemma thm_unknown loc k x l1 l2 y : (∀ name, name ∈ ["instance_id"; "interval_duration"; "aggregations"] → ¬ same_letters k name) →
  an_answer loc (JObj (l1 ++ (k, x) :: l2)) y ↔ an_answer loc (JObj (l1 ++ l2)) y.
Proof.
  intros H. pose proof (H "instance_id" ltac:(set_solver)) as N1. pose proof (H "interval_duration" ltac:(set_solver)) as N2.
  pose proof (H "aggregations" ltac:(set_solver)) as N3. split.
  - intros (l0&u&[[= <-]|[? _]]&(w1&M1&H1)&(w2&M2&H2)&H3&H4); [|done]. exists (l1 ++ l2), u. split; [by left|].
    split; [exists w1; by rewrite <-(member_drop _ k x)|]. split; [exists w2; by rewrite <-(member_drop _ k x)|]. split; [by rewrite <-(member_drop _ k x)|done].
  - intros (l0&u&[[= <-]|[? _]]&(w1&M1&H1)&(w2&M2&H2)&H3&H4); [|done]. exists (l1 ++ (k, x) :: l2), u. split; [by left|].
    split; [exists w1; by rewrite member_drop|]. split; [exists w2; by rewrite member_drop|]. split; [by rewrite member_drop|done].
Qed.
Lemma thm_jobs_page x body now v : json_text v body →
  (∀ rows, top_jobs_event x body now = TResponse rows now ↔ a_page "jobs" a_job_row v rows) ∧
  ((¬ ∃ rows, a_page "jobs" a_job_row v rows) → top_jobs_event x body now = TError x now).
Proof. apply thm_page, job_row_ok. Qed.
Lemma thm_hosts_page x body now v : json_text v body →
  (∀ rows, top_hosts_event x body now = TResponse rows now ↔ a_page "hosts" a_host_row v rows) ∧
  ((¬ ∃ rows, a_page "hosts" a_host_row v rows) → top_hosts_event x body now = TError x now).
Proof. apply thm_page, host_row_ok. Qed.
