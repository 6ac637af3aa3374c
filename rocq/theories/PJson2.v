(** * Proofs about JSON: what is printed is in the grammar; Fprintf without operands *)
From Verif Require Import SJson PUtf8 PWriter PJson.

(** ** trees *)
Section json_ind.
  Context (P : json → Prop).
  Context (Hnull : P JNull) (Hbool : ∀ b, P (JBool b)) (Hnum : ∀ n, P (JNum n)) (Hstr : ∀ s, P (JStr s)).
  Context (Harr : ∀ l, Forall P l → P (JArr l)) (Hobj : ∀ l, Forall (λ kv, P kv.2) l → P (JObj l)).
  Fixpoint json_ind' (v : json) : P v :=
    match v with
    | JNull => Hnull
    | JBool b => Hbool b
    | JNum n => Hnum n
    | JStr s => Hstr s
    | JArr l => Harr l ((fix go l := match l return Forall P l with
                                     | [] => Forall_nil_2 _
                                     | x :: l => Forall_cons_2 _ _ _ (json_ind' x) (go l) end) l)
    | JObj l => Hobj l ((fix go l := match l return Forall (λ kv, P kv.2) l with
                                     | [] => Forall_nil_2 _
                                     | kv :: l => Forall_cons_2 _ _ _ (json_ind' kv.2) (go l) end) l)
    end.
End json_ind.

(** ** quoting *)
Lemma hex_lower_ok k : 0 ≤ k < 16 → hex (hex_lower k) k.
Proof.
  intros H. exists (Z.to_nat k). split; [lia|]. left.
  assert (k = 0 ∨ k = 1 ∨ k = 2 ∨ k = 3 ∨ k = 4 ∨ k = 5 ∨ k = 6 ∨ k = 7 ∨ k = 8 ∨ k = 9 ∨ k = 10 ∨ k = 11 ∨ k = 12 ∨ k = 13 ∨ k = 14 ∨ k = 15) as E by lia.
  repeat destruct E as [->|E]; try subst; reflexivity.
Qed.
Lemma u_escape_ok r : 0 ≤ r < 65536 → scalar r → spelled r (u_escape r).
Proof.
  intros H Hs. apply (Sp_hex r (String (hex_lower (r / 4096)) (String (hex_lower ((r / 256) `mod` 16)) (String (hex_lower ((r / 16) `mod` 16)) (String (hex_lower (r `mod` 16)) ""))))); [|done].
  eexists _, _, _, _, _, _, _, _. split; [done|].
  assert (r / 256 = r / 16 / 16) as E1 by (rewrite Z.div_div by lia; done). assert (r / 4096 = r / 16 / 16 / 16) as E2 by (rewrite !Z.div_div by lia; done).
  rewrite E1, E2. pose proof (Z.div_mod r 16). pose proof (Z.div_mod (r / 16) 16). pose proof (Z.div_mod (r / 16 / 16) 16).
  pose proof (Z.mod_pos_bound r 16). pose proof (Z.mod_pos_bound (r / 16) 16). pose proof (Z.mod_pos_bound (r / 16 / 16) 16).
  repeat (split; [apply hex_lower_ok; lia|]). lia.
Qed.
Lemma escape_ascii_ok c : zcode c < 128 → spelled (zcode c) (escape_ascii c).
Proof.
  intros Hc. pose proof (zcode_bound c) as Hb. unfold escape_ascii.
  destruct (Z.eqb_spec (zcode c) 34) as [E|]; [rewrite E; apply (Sp_short 34 dq); set_solver|].
  destruct (Z.eqb_spec (zcode c) 92) as [E|]; [rewrite E; apply (Sp_short 92 bs); set_solver|].
  destruct (Z.eqb_spec (zcode c) 10) as [E|]; [rewrite E; apply (Sp_short 10 "n"); set_solver|].
  destruct (Z.eqb_spec (zcode c) 13) as [E|]; [rewrite E; apply (Sp_short 13 "r"); set_solver|].
  destruct (Z.eqb_spec (zcode c) 9) as [E|]; [rewrite E; apply (Sp_short 9 "t"); set_solver|].
  destruct (_ || _ || _ || _) eqn:E; [apply u_escape_ok; [lia|unfold scalar; lia]|].
  rewrite !orb_false_iff in E. destruct E as [[[E _] _] _]. apply Z.ltb_ge in E.
  assert (utf8 (zcode c) = String c "") as Eu by (unfold utf8; rewrite decide_True by done; by rewrite zchar_zcode).
  rewrite <-Eu. apply Sp_plain; try done. unfold scalar. lia.
Qed.
Lemma escape_ok f : ∀ s, (String.length s ≤ f)%nat → ∃ l, Forall (λ rs : Z * string, spelled rs.1 rs.2) l ∧
  map fst l = runes s ∧ escape_fuel f s = str_concat (map snd l).
Proof.
  induction f as [|f IH]; intros s Hs; [destruct s; [exists []; done|cbn in Hs; lia]|].
  destruct s as [|c s]; [exists []; done|]. cbn in Hs. cbn [escape_fuel]. rewrite runes_cons.
  destruct (decode_rune c s) as [r t] eqn:D. cbn [fst snd]. pose proof (decode_shorter _ _ _ _ D) as Hsh.
  destruct (Z.ltb_spec (zcode c) 128) as [Hc|Hc].
  - assert (r = zcode c ∧ t = s) as [-> ->].
    { unfold decode_rune in D. destruct (Z.ltb_spec (zcode c) 128); [by injection D|lia]. }
    destruct (IH s) as (l&Hl&El&Ee); [lia|]. exists ((zcode c, escape_ascii c) :: l). split; [|split].
    + constructor; [by apply escape_ascii_ok|done].
    + cbn. by rewrite El.
    + cbn. by rewrite Ee.
  - destruct (IH t) as (l&Hl&El&Ee); [lia|].
    assert (Hsc : scalar r). { apply decode_rune_spec in D as [[? _]|(->&_)]; [done|]. unfold scalar. lia. }
    set (sp := if (r =? rune_error) && bool_decide (t = s) then u_escape rune_error else if (r =? 8232) || (r =? 8233) then u_escape r else enc_rune r).
    exists ((r, sp) :: l). split; [|split]; [|cbn; by rewrite El|cbn; by rewrite Ee].
    constructor; [|done]. cbn [fst snd]. unfold sp. clear sp.
    destruct (Z.eqb_spec r rune_error) as [->|]; cbn [andb].
    + case_bool_decide; [apply u_escape_ok; [unfold rune_error; lia|done]|].
      replace ((rune_error =? 8232) || (rune_error =? 8233)) with false by done. rewrite enc_rune_utf8. apply Sp_plain; unfold rune_error in *; try lia. done.
    + destruct (_ || _) eqn:E.
      { apply u_escape_ok; [|done]. rewrite orb_true_iff, !Z.eqb_eq in E. lia. }
      rewrite enc_rune_utf8.
      assert (128 ≤ r).
      { apply decode_rune_spec in D as [[_ Eu]|(->&_)]; [|by unfold rune_error in *]. unfold utf8 in Eu. case_decide; [|lia].
        rewrite sapp_one in Eu. injection Eu as -> _. pose proof Hsc as Hx. unfold scalar in Hx. rewrite zcode_zchar in Hc by lia. lia. }
      apply Sp_plain; [done|lia..].
Qed.
Lemma quote_ok s t : coerced s t → string_text t (quote s).
Proof.
  intros (rs&Hr&->). apply runes_spec in Hr. subst rs. destruct (escape_ok (String.length s) s) as (l&Hl&El&Ee); [done|].
  exists l. split; [done|]. rewrite <-El, map_map. split; [done|]. unfold quote. rewrite Ee. done.
Qed.

(** ** printing *)
Fixpoint c_elems (l : list json) : string :=
  match l with [] => "" | x :: l' => compact x +:+ (match l' with [] => "" | _ => "," end) +:+ c_elems l' end.
Fixpoint c_mems (l : list (string * json)) : string :=
  match l with [] => "" | (k, x) :: l' => quote k +:+ ":" +:+ compact x +:+ (match l' with [] => "" | _ => "," end) +:+ c_mems l' end.
Lemma compact_arr l : compact (JArr l) = "[" +:+ c_elems l +:+ "]".
Proof. done. Qed.
Lemma compact_obj l : compact (JObj l) = "{" +:+ c_mems l +:+ "}".
Proof. done. Qed.
Definition i_elems (depth : nat) := fix i_elems (l : list json) : string :=
  match l with [] => "" | x :: l' => newline_at (S depth) +:+ indented (S depth) x +:+ (match l' with [] => "" | _ => "," end) +:+ i_elems l' end.
Definition i_mems (depth : nat) := fix i_mems (l : list (string * json)) : string :=
  match l with [] => "" | (k, x) :: l' => newline_at (S depth) +:+ quote k +:+ ": " +:+ indented (S depth) x +:+ (match l' with [] => "" | _ => "," end) +:+ i_mems l' end.
Lemma indented_arr d x l : indented d (JArr (x :: l)) = "[" +:+ i_elems d (x :: l) +:+ newline_at d +:+ "]".
Proof. done. Qed.
Lemma indented_obj d x l : indented d (JObj (x :: l)) = "{" +:+ i_mems d (x :: l) +:+ newline_at d +:+ "}".
Proof. done. Qed.

Lemma compact_ok v : ∀ v', jcoerced v v' → value_text v' (compact v).
Proof.
  induction v as [|b|n|s|l IH|l IH] using json_ind'; intros v' H; inversion H as [|b'|n' Hn|s' t' Hs|a b' Hab|a b' Hab]; subst.
  - constructor.
  - destruct b; constructor.
  - by constructor.
  - constructor. by apply quote_ok.
  - rewrite compact_arr. destruct l as [|x l]; [inversion Hab; subst; change (c_elems []) with ""; apply Vt_arr0, blank_nil|].
    apply Vt_arr. clear H. revert x IH b' Hab. induction l as [|y l IHl]; intros x IH b' Hab.
    + inversion Hab as [|? x' ? l' Hx Hl]; subst. inversion Hl; subst. inversion IH as [|? ? IHx _]; subst.
      cbn [c_elems]. rewrite <-(sapp_nil_r (compact x)). rewrite sapp_assoc. change (compact x +:+ "" +:+ "" +:+ "") with ("" +:+ compact x +:+ "").
      apply Et_one; [apply blank_nil|auto|apply blank_nil].
    + inversion Hab as [|? x' ? l' Hx Hl]; subst. inversion IH as [|? ? IHx IHy]; subst.
      change (c_elems (x :: y :: l)) with ("" +:+ compact x +:+ "" +:+ "," +:+ c_elems (y :: l)).
      apply Et_more; [apply blank_nil|auto|apply blank_nil|]. by apply IHl.
  - rewrite compact_obj. destruct l as [|x l]; [inversion Hab; subst; change (c_mems []) with ""; apply Vt_obj0, blank_nil|].
    apply Vt_obj. clear H. revert x IH b' Hab. induction l as [|y l IHl]; intros [k x] IH b' Hab.
    + inversion Hab as [|? [k' x'] ? l' [Hk Hx] Hl]; subst. inversion Hl; subst. inversion IH as [|? ? IHx _]; subst.
      change (c_mems [(k, x)]) with ("" +:+ quote k +:+ "" +:+ ":" +:+ "" +:+ compact x +:+ "").
      apply Mt_one; try apply blank_nil; [by apply quote_ok|auto].
    + inversion Hab as [|? [k' x'] ? l' [Hk Hx] Hl]; subst. inversion IH as [|? ? IHx IHy]; subst.
      change (c_mems ((k, x) :: y :: l)) with ("" +:+ quote k +:+ "" +:+ ":" +:+ "" +:+ compact x +:+ "" +:+ "," +:+ c_mems (y :: l)).
      apply Mt_more; try apply blank_nil; [by apply quote_ok|auto|]. by apply IHl.
Qed.
Lemma blank_newline d : blank (newline_at d).
Proof.
  unfold newline_at, blank. change (nl +:+ tabs d) with (String newline (tabs d)). cbn [list_ascii_of_string].
  constructor; [unfold newline; set_solver|]. induction d as [|d IH]; [constructor|]. cbn. constructor; [unfold tab; set_solver|done].
Qed.
Lemma blank_space : blank " ".
Proof. constructor; [set_solver|constructor]. Qed.
Lemma indented_ok v : ∀ d v', jcoerced v v' → value_text v' (indented d v).
Proof.
  induction v as [|b|n|s|l IH|l IH] using json_ind'; intros d v' H.
  1-4: by apply compact_ok.
  - destruct l as [|x l]; [by apply compact_ok|]. inversion H as [| | | |a b' Hab|]; subst. rewrite indented_arr, <-sapp_assoc.
    replace ("[" +:+ i_elems d (x :: l)) with ("[" +:+ i_elems d (x :: l)) by done. rewrite sapp_assoc.
    replace (i_elems d (x :: l) +:+ newline_at d +:+ "]") with ((i_elems d (x :: l) +:+ newline_at d) +:+ "]") by apply sapp_assoc.
    apply Vt_arr. clear H. revert x IH b' Hab. induction l as [|y l IHl]; intros x IH b' Hab.
    + inversion Hab as [|? x' ? l' Hx Hl]; subst. inversion Hl; subst. inversion IH as [|? ? IHx _]; subst.
      change (i_elems d [x]) with (newline_at (S d) +:+ indented (S d) x +:+ "" +:+ ""). rewrite !sapp_assoc. change ("" +:+ "" +:+ newline_at d) with (newline_at d).
      apply Et_one; [apply blank_newline|auto|apply blank_newline].
    + inversion Hab as [|? x' ? l' Hx Hl]; subst. inversion IH as [|? ? IHx IHy]; subst.
      change (i_elems d (x :: y :: l)) with (newline_at (S d) +:+ indented (S d) x +:+ "," +:+ i_elems d (y :: l)). rewrite !sapp_assoc.
      change ("," +:+ i_elems d (y :: l) +:+ newline_at d) with ("" +:+ "," +:+ i_elems d (y :: l) +:+ newline_at d).
      apply Et_more; [apply blank_newline|auto|apply blank_nil|]. by apply IHl.
  - destruct l as [|x l]; [by apply compact_ok|]. inversion H as [| | | | |a b' Hab]; subst. rewrite indented_obj.
    replace (i_mems d (x :: l) +:+ newline_at d +:+ "}") with ((i_mems d (x :: l) +:+ newline_at d) +:+ "}") by apply sapp_assoc.
    apply Vt_obj. clear H. revert x IH b' Hab. induction l as [|y l IHl]; intros [k x] IH b' Hab.
    + inversion Hab as [|? [k' x'] ? l' [Hk Hx] Hl]; subst. inversion Hl; subst. inversion IH as [|? ? IHx _]; subst.
      change (i_mems d [(k, x)]) with (newline_at (S d) +:+ quote k +:+ ": " +:+ indented (S d) x +:+ "" +:+ ""). rewrite !sapp_assoc. change ("" +:+ "" +:+ newline_at d) with (newline_at d).
      change (": " +:+ ?z) with ("" +:+ ":" +:+ " " +:+ z).
      apply Mt_one; [apply blank_newline|by apply quote_ok|apply blank_nil|apply blank_space|by apply IHx|apply blank_newline].
    + inversion Hab as [|? [k' x'] ? l' [Hk Hx] Hl]; subst. inversion IH as [|? ? IHx IHy]; subst.
      change (i_mems d ((k, x) :: y :: l)) with (newline_at (S d) +:+ quote k +:+ ": " +:+ indented (S d) x +:+ "," +:+ i_mems d (y :: l)). rewrite !sapp_assoc.
      change (": " +:+ indented (S d) x +:+ "," +:+ i_mems d (y :: l) +:+ newline_at d)
        with ("" +:+ ":" +:+ " " +:+ indented (S d) x +:+ "" +:+ "," +:+ i_mems d (y :: l) +:+ newline_at d).
      apply Mt_more; [apply blank_newline|by apply quote_ok|apply blank_nil|apply blank_space|by apply IHx|apply blank_nil|]. by apply IHl.
Qed.
Lemma value_json v t : value_text v t → json_text v t.
Proof. intros H. exists "", "", t. split; [by rewrite sapp_nil_r|]. split; [apply blank_nil|]. split; [apply blank_nil|done]. Qed.
Lemma parse_indented v v' : jcoerced v v' → parse_json (indented 0 v) = Some v'.
Proof. intros H. apply parse_complete, value_json. by apply indented_ok. Qed.
Lemma parse_compact v v' : jcoerced v v' → parse_json (compact v) = Some v'.
Proof. intros H. apply parse_complete, value_json. by apply compact_ok. Qed.

(** ** valid text is not changed *)
Lemma coerced_valid s : valid_utf8 s → coerced s s.
Proof.
  intros (rs&Hrs&->). exists rs. split; [|done]. induction Hrs as [|r rs Hr _ IH]; [constructor|]. cbn. by constructor.
Qed.
Lemma coerced_unique s t1 t2 : coerced s t1 → coerced s t2 → t1 = t2.
Proof. intros (r1&H1&->) (r2&H2&->). by rewrite (reads_unique _ _ H1 _ H2). Qed.
Lemma coerced_total s : ∃ t, coerced s t.
Proof. eexists _, (runes s). split; [apply runes_reads|done]. Qed.

(** ** Fprintf *)
Lemma fprintf_plain f : ∀ s, (String.length s ≤ f)%nat → no_percent s → fprintf_fuel f s = s.
Proof.
  unfold no_percent. induction f as [|f IH]; intros [|c s] Hf Hs; cbn in Hf; [done|lia|done|]. inversion Hs as [|? ? Hc Hs']; subst.
  cbn [fprintf_fuel]. destruct (Ascii.eqb_spec c "%"); [done|]. rewrite IH; [done|lia|done].
Qed.
Lemma fprintf0_plain s : no_percent s → fprintf0 s = s.
Proof. by apply fprintf_plain. Qed.
Lemma no_percent_app a b : no_percent (a +:+ b) ↔ no_percent a ∧ no_percent b.
Proof.
  unfold no_percent. induction a as [|c a IH].
  - change ("" +:+ b) with b. split; [intros ?; split; [constructor|done]|tauto].
  - rewrite sapp_cons. cbn [list_ascii_of_string]. rewrite !Forall_cons, IH. tauto.
Qed.
