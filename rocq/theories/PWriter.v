(** * Proofs about the WriterSink *)
From Verif Require Import SWriter PApi.

(** ** Decimal text *)
Lemma sapp_assoc (a b c : string) : (a +:+ b) +:+ c = a +:+ (b +:+ c).
Proof. induction a as [|x a IH]; [done|]. change (String x ((a +:+ b) +:+ c) = String x (a +:+ (b +:+ c))). by rewrite IH. Qed.
Lemma sapp_nil_r (a : string) : a +:+ "" = a.
Proof. induction a as [|x a IH]; [done|]. change (String x (a +:+ "") = String x a). by rewrite IH. Qed.
Lemma sapp_cons x (a b : string) : String x a +:+ b = String x (a +:+ b).
Proof. done. Qed.
Lemma sol_app l1 l2 : string_of_list_ascii (l1 ++ l2) = string_of_list_ascii l1 +:+ string_of_list_ascii l2.
Proof. induction l1 as [|x l1 IH]; [done|]. cbn. rewrite sapp_cons. by rewrite IH. Qed.
Lemma place_value_snoc ds d : place_value (ds ++ [d]) = place_value ds * 10 + d.
Proof.
  induction ds as [|x ds IH]; [cbn; lia|]. cbn [app place_value]. rewrite IH, app_length. cbn [length].
  rewrite Nat.add_1_r, Nat2Z.inj_succ, Z.pow_succ_r by lia. lia.
Qed.
Lemma dec_fuel_numeral f : ∀ n, 0 ≤ n < 2 ^ Z.of_nat f → (0 < f)%nat → numeral (dec_fuel f n) n.
Proof.
  induction f as [|f IH]; intros n Hn Hf; [lia|]. cbn [dec_fuel].
  destruct (Z.ltb_spec n 10).
  - exists [n]. split; [done|]. split; [constructor; [lia|constructor]|]. split; [|cbn; lia].
    rewrite Z.mod_small by lia. done.
  - assert (Hp : 2 ^ Z.of_nat (S f) = 2 * 2 ^ Z.of_nat f) by (rewrite Nat2Z.inj_succ, Z.pow_succ_r by lia; done).
    assert (Hq : 0 ≤ n / 10 < 2 ^ Z.of_nat f).
    { split; [apply Z.div_pos; lia|]. apply Z.div_lt_upper_bound; lia. }
    destruct (IH (n / 10) Hq) as (ds&Hne&Hds&Es&En).
    { destruct f; [cbn in Hp; lia|lia]. }
    exists (ds ++ [n `mod` 10]). split; [by destruct ds|]. split.
    { apply Forall_app. split; [done|]. constructor; [|constructor]. pose proof (Z.mod_pos_bound n 10). lia. }
    split; [rewrite map_app, sol_app, <-Es; done|].
    rewrite place_value_snoc, <-En. pose proof (Z.div_mod n 10). lia.
Qed.
Lemma dec_nat_numeral n : 0 ≤ n → numeral (dec_nat n) n.
Proof.
  intros Hn. apply dec_fuel_numeral; [|lia]. rewrite Nat2Z.inj_succ, Z2Nat.id by apply Z.log2_nonneg.
  split; [done|]. destruct (decide (n = 0)) as [->|]; [done|]. apply Z.log2_spec. lia.
Qed.
Lemma dec_int_numeral n : in_int64 n → int_numeral (dec_int n) n.
Proof.
  intros Hn. split; [done|]. unfold dec_int. destruct (Z.ltb_spec n 0).
  - right. right. exists (dec_nat (- n)). split; [done|]. apply dec_nat_numeral. lia.
  - left. by apply dec_nat_numeral.
Qed.
Lemma thm_time_text n : in_int64 n → time_text n (write_nanoseconds n).
Proof.
  intros Hn. unfold write_nanoseconds, time_text, unit_of.
  assert (Hq : ∀ d, 0 < d → 0 ≤ n → in_int64 (Z.quot n d) ∧ Z.quot n d * d ≤ n < (Z.quot n d + 1) * d).
  { intros d Hd Hn0. rewrite Z.quot_div_nonneg by lia. pose proof (Z.div_mod n d). pose proof (Z.mod_pos_bound n d).
    assert (0 ≤ n / d) by (apply Z.div_pos; lia). assert (n / d ≤ n) by (apply Z.div_le_upper_bound; nia).
    unfold in_int64 in *. split; [lia|nia]. }
  destruct (Z.ltb_spec 2000000 n).
  - rewrite decide_False, decide_False by lia. destruct (Hq 1000000) as [H1 H2]; [lia|lia|].
    exists (dec_int (Z.quot n 1000000)), (Z.quot n 1000000). split; [by apply dec_int_numeral|]. done.
  - destruct (Z.ltb_spec 2000 n).
    + rewrite decide_False, decide_True by lia. destruct (Hq 1000) as [H1 H2]; [lia|lia|].
      exists (dec_int (Z.quot n 1000)), (Z.quot n 1000). split; [by apply dec_int_numeral|]. done.
    + rewrite decide_True by lia. exists (dec_int n), n. split; [by apply dec_int_numeral|]. split; [done|]. cbn. lia.
Qed.

(** ** Key/values *)
Lemma write_kvs_concat m : ∀ keys last i, last = i + Z.of_nat (length keys) - 1 →
  write_kvs m last i keys = String.concat " " (map (λ k, k +:+ ":" +:+ mget m k "") keys).
Proof.
  induction keys as [|k keys IH]; intros last i ->; [done|]. cbn [write_kvs map]. rewrite (IH _ (i + 1)) by (cbn [length]; lia).
  destruct keys as [|k' keys].
  - cbn [length map]. replace (i + Z.of_nat 1 - 1) with i by lia. rewrite Z.eqb_refl. cbn [negb]. cbn [String.concat].
    by rewrite !sapp_nil_r.
  - destruct (Z.eqb_spec i (i + Z.of_nat (length (k :: k' :: keys)) - 1)); [cbn [length] in *; lia|]. cbn [negb].
    assert (E : ∀ x y l, String.concat " " (x :: y :: l) = x +:+ " " +:+ String.concat " " (y :: l)) by done.
    cbn [map]. rewrite E. by rewrite !sapp_assoc.
Qed.
Lemma str_lt_trans s t u : str_lt s t → str_lt t u → str_lt s u.
Proof. rewrite <-!str_ltb_spec. apply str_ltb_trans. Qed.
Lemma str_lt_irrefl s : ¬ str_lt s s.
Proof. rewrite <-str_ltb_spec, str_ltb_irrefl. done. Qed.
Lemma sorted_keys srt (l : list string) : correct_sort srt → NoDup l → StronglySorted str_lt (srt str_ltb l).
Proof.
  intros Hs Hnd. destruct (Hs str_ltb l) as [Hp Hss]. specialize (Hss (sw_str (λ x, x) l)).
  rewrite <-Hp in Hnd. clear Hp. induction Hss as [|x k Hk IH Hf]; [constructor|].
  inversion Hnd as [|? ? Hn Hnd']; subst. constructor; [by apply IH|].
  rewrite Forall_forall in *. intros y Hy. specialize (Hf y Hy). apply str_ltb_le in Hf as [->|Hf]; [done|done].
Qed.
Lemma sorted_unique (l1 l2 : list string) : StronglySorted str_lt l1 → StronglySorted str_lt l2 → (∀ k, k ∈ l1 ↔ k ∈ l2) → l1 = l2.
Proof.
  revert l2. induction l1 as [|x l1 IH]; intros l2 H1 H2 Hin.
  { destruct l2 as [|y l2]; [done|]. exfalso. apply (elem_of_nil y). apply Hin. left. }
  destruct l2 as [|y l2]. { exfalso. apply (elem_of_nil x). apply Hin. left. }
  inversion H1 as [|? ? H1' F1]; subst. inversion H2 as [|? ? H2' F2]; subst. rewrite Forall_forall in F1, F2.
  assert (x = y) as ->.
  { assert (Hx : x ∈ y :: l2) by (apply Hin; left). assert (Hy : y ∈ x :: l1) by (apply Hin; left).
    apply elem_of_cons in Hx as [->|Hx]; [done|]. apply elem_of_cons in Hy as [->|Hy]; [done|].
    exfalso. eapply str_lt_irrefl, (str_lt_trans x y); [by apply F1|by apply F2]. }
  f_equal. apply IH; [done|done|]. intros k. specialize (Hin k). rewrite !elem_of_cons in Hin.
  split; intros Hk.
  - destruct (proj1 Hin (or_intror Hk)) as [->|?]; [|done]. exfalso. by eapply str_lt_irrefl, F1.
  - destruct (proj2 Hin (or_intror Hk)) as [->|?]; [|done]. exfalso. by eapply str_lt_irrefl, F2.
Qed.
Lemma listing_unique m l1 l2 : listing m l1 → listing m l2 → l1 = l2.
Proof.
  intros [S1 I1] [S2 I2].
  assert (G : ∀ l, (∀ k v, (k, v) ∈ l ↔ m !! k = Some v) → l = map (λ k, (k, mget m k "")) (map fst l)).
  { intros l Hl. rewrite map_map. assert (Hl' : ∀ k v, (k, v) ∈ l → m !! k = Some v) by (intros k v; apply Hl). clear Hl.
    induction l as [|[k v] l IH]; [done|]. cbn. f_equal; [|apply IH; intros k' v' Hin; apply Hl'; by right].
    unfold mget. rewrite (Hl' k v); [done|left]. }
  rewrite (G l1 I1), (G l2 I2). f_equal. apply sorted_unique; [done|done|].
  intros k. rewrite !elem_of_list_fmap. split; intros ([k' v]&->&Hin); exists (k', v); (split; [done|]).
  - by apply I2, I1.
  - by apply I1, I2.
Qed.
Lemma thm_write_map srt kvs order : correct_sort srt → (∀ m, kvs = Some m → order ≡ₚ map fst (map_to_list m)) →
  kvs_shown kvs (write_map srt kvs order).
Proof.
  intros Hs Ho. destruct kvs as [m|]; [|done]. specialize (Ho m eq_refl). cbn.
  set (keys := srt str_ltb order).
  assert (Hp : keys ≡ₚ map fst (map_to_list m)). { rewrite <-Ho. apply Hs. }
  exists (map (λ k, (k, mget m k "")) keys). split.
  - split.
    + rewrite map_map. rewrite (map_ext _ (λ x, x)) by done. rewrite map_id. apply sorted_keys; [done|].
      rewrite Ho. apply NoDup_fst_map_to_list.
    + intros k v. rewrite elem_of_list_fmap. setoid_rewrite Hp. setoid_rewrite elem_of_list_fmap. split.
      * intros (k'&[= -> ->]&([k2 v2]&->&Hin)). apply elem_of_map_to_list in Hin. cbn. unfold mget. by rewrite Hin.
      * intros Hk. exists k. unfold mget. rewrite Hk. split; [done|]. exists (k, v). by rewrite elem_of_map_to_list.
  - unfold kvs_text. rewrite write_kvs_concat by lia. by rewrite map_map.
Qed.
Lemma kvs_shown_unique kvs t1 t2 : kvs_shown kvs t1 → kvs_shown kvs t2 → t1 = t2.
Proof.
  destruct kvs as [m|]; cbn; [|by intros -> ->]. intros (l1&H1&->) (l2&H2&->). by rewrite (listing_unique m l1 l2).
Qed.
Definition is_order (kvs : option (gmap string string)) (order : list string) : Prop :=
  ∀ m, kvs = Some m → order ≡ₚ map fst (map_to_list m).

Lemma status_named_string st : status_named st (status_string st).
Proof.
  unfold status_string, Success, ValidationError, Panic, Error, Junk. repeat case_match; 
    repeat match goal with H : (_ =? _) = true |- _ => apply Z.eqb_eq in H; subst | H : (_ =? _) = false |- _ => apply Z.eqb_neq in H end;
    constructor. lia.
Qed.
Lemma thm_writer_line srt g ts job e kvs order writes : correct_sort srt → is_order kvs order →
  (∀ n, match e with WTiming _ k | WComplete _ k => n = k | _ => False end → in_int64 n) →
  ∃ what kvt, shown g e what ∧ kvs_shown kvs kvt ∧
    writer_emit srt g ts job e kvs order writes = writes ++ ["[" +:+ ts +:+ "]: job:" +:+ job +:+ what +:+ kvt +:+ nl].
Proof.
  intros Hs Ho Hn. eexists _, (write_map srt kvs order). split; [|split; [by apply thm_write_map|reflexivity]].
  destruct e; constructor; try apply status_named_string; apply thm_time_text; by apply Hn.
Qed.
Lemma thm_writer_deterministic srt1 srt2 g ts job e kvs o1 o2 : correct_sort srt1 → correct_sort srt2 → is_order kvs o1 → is_order kvs o2 →
  writer_line srt1 g ts job e kvs o1 = writer_line srt2 g ts job e kvs o2.
Proof.
  intros H1 H2 H3 H4. unfold writer_line. do 5 f_equal.
  rewrite (kvs_shown_unique kvs (write_map srt1 kvs o1) (write_map srt2 kvs o2)); [done|by apply thm_write_map|by apply thm_write_map].
Qed.

(** ** Newlines *)
Lemma newlines_app a b : newlines (a +:+ b) = newlines a + newlines b.
Proof.
  unfold newlines, byte_count. replace (bytes_of (a +:+ b)) with (bytes_of a ++ bytes_of b).
  - rewrite filter_app, app_length. lia.
  - induction a as [|x a IH]; [done|]. rewrite sapp_cons. cbn. by rewrite IH.
Qed.
Lemma newlines_digits l : Forall (λ d, 0 ≤ d ≤ 9) l → newlines (string_of_list_ascii (map digit_ascii l)) = 0.
Proof.
  induction 1 as [|d l Hd Hl IH]; [done|]. cbn [map string_of_list_ascii].
  change (String ?x ?y) with (String x "" +:+ y). rewrite newlines_app, IH.
  assert (Hd' : d = 0 ∨ d = 1 ∨ d = 2 ∨ d = 3 ∨ d = 4 ∨ d = 5 ∨ d = 6 ∨ d = 7 ∨ d = 8 ∨ d = 9) by lia.
  by destruct_or! Hd'; subst.
Qed.
Lemma newlines_numeral s n : numeral s n → newlines s = 0.
Proof. intros (ds&_&H&->&_). by apply newlines_digits. Qed.
Lemma newlines_dec n : newlines (dec_int n) = 0.
Proof.
  unfold dec_int. destruct (Z.ltb_spec n 0).
  - rewrite newlines_app. rewrite (newlines_numeral (dec_nat (- n)) (- n)); [done|]. apply dec_nat_numeral. lia.
  - by apply (newlines_numeral _ n), dec_nat_numeral.
Qed.
Lemma newlines_time n : newlines (write_nanoseconds n) = 0.
Proof. unfold write_nanoseconds. repeat case_match; rewrite ?newlines_app, newlines_dec; done. Qed.
Lemma newlines_status st : newlines (status_string st) = 0.
Proof. unfold status_string. by repeat case_match. Qed.
Lemma newlines_concat l : newlines (String.concat " " l) = total_newlines l.
Proof.
  induction l as [|x l IH]; [done|]. destruct l as [|y l].
  - cbn. unfold total_newlines. cbn. lia.
  - change (String.concat " " (x :: y :: l)) with (x +:+ " " +:+ String.concat " " (y :: l)).
    rewrite !newlines_app, IH. unfold total_newlines. cbn. change (newlines " ") with 0. lia.
Qed.
Definition pair_newlines (kv : string * string) : Z := newlines kv.1 + newlines kv.2.
Lemma sorted_nodup k : StronglySorted str_lt k → NoDup k.
Proof.
  induction 1 as [|x k Hk IH Hf]; [constructor|]. constructor; [|done].
  rewrite Forall_forall in Hf. intros Hin. by eapply str_lt_irrefl, Hf.
Qed.
Lemma kvs_newlines_listing m l : listing m l → kvs_newlines (Some m) = foldr Z.add 0 (map pair_newlines l).
Proof.
  intros [Hs Hl]. unfold kvs_newlines. unfold map_fold. cbn [compose].
  assert (Hp : map_to_list m ≡ₚ l).
  { apply NoDup_Permutation; [apply NoDup_map_to_list| |].
    - apply (NoDup_fmap_1 fst). by apply sorted_nodup.
    - intros [k v]. by rewrite elem_of_map_to_list, Hl. }
  transitivity (foldr Z.add 0 (map pair_newlines (map_to_list m))).
  - clear. induction (map_to_list m) as [|[k v] l' IH]; [done|]. cbn. rewrite IH. unfold pair_newlines. cbn. lia.
  - clear -Hp. induction Hp; cbn; lia.
Qed.
Lemma thm_newlines srt g ts job e kvs order : correct_sort srt → is_order kvs order →
  newlines (writer_line srt g ts job e kvs order) =
    1 + newlines ts + newlines job + total_newlines (emission_texts g e) + kvs_newlines kvs.
Proof.
  intros Hs Ho. unfold writer_line. rewrite !newlines_app.
  assert (Hk : newlines (write_map srt kvs order) = kvs_newlines kvs).
  { pose proof (thm_write_map srt kvs order Hs Ho) as Hk. destruct kvs as [m|]; [|by rewrite Hk]. destruct Hk as (l&Hl&->).
    rewrite (kvs_newlines_listing m l Hl). unfold kvs_text. rewrite !newlines_app, newlines_concat. unfold total_newlines. rewrite map_map.
    change (newlines " kvs:[") with 0. change (newlines "]") with 0. rewrite Z.add_0_l, Z.add_0_r. f_equal. apply map_ext. intros [k v].
    rewrite !newlines_app. unfold pair_newlines. cbn. change (newlines ":") with 0. lia. }
  rewrite Hk. unfold total_newlines.
  destruct e; cbn [emission_texts map foldr]; rewrite ?newlines_app, ?newlines_time, ?newlines_status;
    repeat match goal with |- context [newlines ?x] => match x with String _ _ => change (newlines x) with 0 | nl => change (newlines x) with 1 end end; lia.
Qed.
Lemma thm_forged srt g ts :
  newlines (writer_line srt g ts ("a event:x" +:+ nl +:+ "[" +:+ ts +:+ "]: job:b") (WEvent "y") None []) ≠ 1 ∧
  writer_line srt g ts ("a event:x" +:+ nl +:+ "[" +:+ ts +:+ "]: job:b") (WEvent "y") None [] =
    writer_line srt g ts "a" (WEvent "x") None [] +:+ writer_line srt g ts "b" (WEvent "y") None [].
Proof.
  unfold writer_line, write_map. split.
  - rewrite !newlines_app. assert (0 ≤ newlines ts) by (unfold newlines; lia).
    repeat match goal with |- context [newlines ?x] => match x with String _ _ => change (newlines x) with 0 | nl => change (newlines x) with 1 | EmptyString => change (newlines x) with 0 end end. lia.
  - rewrite !sapp_assoc. done.
Qed.
