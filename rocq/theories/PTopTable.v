(** * healthtop's tables *)
From Verif Require Export STopTable PTop.
From Verif Require Import PApi PWriter PUtf8 PLibrato.

Lemma plain_app s t : plain (s +:+ t) ↔ plain s ∧ plain t.
Proof. unfold plain. setoid_rewrite bytes_of_app. setoid_rewrite elem_of_app. naive_solver. Qed.
Lemma tidy_app s t : tidy (s +:+ t) ↔ tidy s ∧ tidy t.
Proof. unfold tidy. rewrite plain_app, bytes_of_app, elem_of_app. naive_solver. Qed.
Lemma special_dec c : special c ∨ ¬ special c.
Proof. unfold special. destruct (decide (zcode c ∈ [9; 10; 11; 12])); auto. Qed.
(** a decision procedure, for literals *)
Definition tidyb (s : string) : bool := forallb (λ c, negb (bool_decide (zcode c ∈ [9; 10; 11; 12])) && negb (Ascii.eqb c esc)) (bytes_of s).
Lemma tidyb_tidy s : tidyb s = true → tidy s.
Proof.
  unfold tidyb. rewrite forallb_forall. intros H. split.
  - intros c Hc. apply elem_of_list_In, H, andb_true_iff in Hc as [Hc _]. apply negb_true_iff, bool_decide_eq_false in Hc. done.
  - intros Hc. apply elem_of_list_In, H, andb_true_iff in Hc as [_ Hc]. by rewrite Ascii.eqb_refl in Hc.
Qed.
Lemma numeral_tidy s n : numeral s n → tidy s.
Proof.
  intros (ds & _ & Hd & -> & _). apply tidyb_tidy. unfold tidyb. induction Hd as [|d ds H _ IH]; [done|].
  cbn [map string_of_list_ascii bytes_of forallb]. apply andb_true_iff. split; [|done].
  assert (d = 0 ∨ d = 1 ∨ d = 2 ∨ d = 3 ∨ d = 4 ∨ d = 5 ∨ d = 6 ∨ d = 7 ∨ d = 8 ∨ d = 9) as C by lia.
  repeat destruct C as [->|C]; try subst d; by vm_compute.
Qed.
Lemma int_numeral_tidy s n : int_numeral s n → tidy s.
Proof.
  intros (_ & [H|[(t & -> & H)|(t & -> & H)]]); [by eapply numeral_tidy| |];
    (apply tidy_app; split; [by apply tidyb_tidy|by eapply numeral_tidy]).
Qed.
Lemma cell_text_tidy n t : cell_text n t → tidy t.
Proof.
  intros (d & k & Hd & -> & _). apply tidy_app. split; [by eapply int_numeral_tidy|]. apply tidyb_tidy.
  unfold cell_unit. by repeat case_decide.
Qed.

Lemma visible_tidy s t : esc ∉ bytes_of s → visible false (s +:+ t) = s +:+ visible false t.
Proof.
  induction s as [|c s IH]; intros H; [done|]. rewrite !sapp_cons. cbn [visible].
  destruct (Ascii.eqb_spec c esc) as [->|]; [exfalso; apply H; by left|]. rewrite IH; [done|]. intros Hs. apply H. by right.
Qed.
Lemma visible_inside d t : "m"%char ∉ bytes_of d → visible true (d +:+ String "m" t) = visible false t.
Proof.
  induction d as [|c d IH]; intros H; [done|]. rewrite sapp_cons. cbn [visible].
  destruct (Ascii.eqb_spec c "m") as [->|]; [exfalso; apply H; by left|]. apply IH. intros Hs. apply H. by right.
Qed.
Lemma visible_sgr p t : sgr p → visible false (p +:+ t) = visible false t.
Proof.
  intros (d & -> & _ & H).
  assert (E : (String esc "[" +:+ d +:+ "m") +:+ t = String esc (String "[" (d +:+ String "m" t))).
  { rewrite !sapp_assoc, !sapp_cons. done. }
  rewrite E. cbn [visible]. rewrite Ascii.eqb_refl. change (visible true (String "[" (d +:+ String "m" t))) with (visible true (d +:+ String "m" t)).
  by apply visible_inside.
Qed.
Definition plainb (s : string) : bool := forallb (λ c, negb (bool_decide (zcode c ∈ [9; 10; 11; 12]))) (bytes_of s).
Lemma plainb_plain s : plainb s = true → plain s.
Proof.
  unfold plainb. rewrite forallb_forall. intros H c Hc. apply elem_of_list_In, H, negb_true_iff, bool_decide_eq_false in Hc. done.
Qed.
Lemma sgr_plain p : sgr p → plain p.
Proof. intros (d & -> & Hd & _). rewrite !plain_app. split; [by apply plainb_plain|]. split; [done|]. by apply plainb_plain. Qed.

(** ** Reading a table *)
Lemma special_tab : special (zchar 9).
Proof. left. Qed.
Lemma special_nl : special (zchar 10).
Proof. right. left. Qed.
(** at most one special character ends a cell *)
Lemma plain_cut c a b u v d : special c → special d → plain a → plain b → a +:+ String c u = b +:+ String d v → a = b ∧ c = d ∧ u = v.
Proof.
  intros Sc Sd. revert b. induction a as [|x a IH]; intros [|y b] Ha Hb E.
  - by injection E.
  - exfalso. change (String c u = String y (b +:+ String d v)) in E. injection E as -> _. apply (Hb y); [by left|done].
  - exfalso. change (String x (a +:+ String c u) = String d v) in E. injection E as -> _. apply (Ha d); [by left|done].
  - rewrite !sapp_cons in E. injection E as -> E. destruct (IH b) as (-> & -> & ->); try done; intros z Hz; [apply Ha|apply Hb]; by right.
Qed.
Lemma cells_cut l l' u v : l ≠ [] → l' ≠ [] → Forall plain l → Forall plain l' →
  String.concat tab_s l +:+ nl_s +:+ u = String.concat tab_s l' +:+ nl_s +:+ v → l = l' ∧ u = v.
Proof.
  intros Hl Hl' Fl. revert l' Hl'. induction Fl as [|a l Ha Fl IH]; [done|]. clear Hl. intros [|b l'] Hl' Fl' E; [done|]. clear Hl'.
  apply Forall_cons in Fl' as [Hb Fl'].
  assert (Cc : ∀ x y l, String.concat tab_s (x :: y :: l) = x +:+ tab_s +:+ String.concat tab_s (y :: l)) by done.
  destruct l as [|a' l], l' as [|b' l'].
  - change (a +:+ String (zchar 10) u = b +:+ String (zchar 10) v) in E.
    destruct (plain_cut _ _ _ _ _ _ special_nl special_nl Ha Hb E) as (-> & _ & ->). done.
  - exfalso. rewrite Cc, !sapp_assoc in E. change (a +:+ String (zchar 10) u = b +:+ String (zchar 9) (String.concat tab_s (b' :: l') +:+ nl_s +:+ v)) in E.
    destruct (plain_cut _ _ _ _ _ _ special_nl special_tab Ha Hb E) as (_ & Hx & _). discriminate Hx.
  - exfalso. rewrite Cc, !sapp_assoc in E. change (a +:+ String (zchar 9) (String.concat tab_s (a' :: l) +:+ nl_s +:+ u) = b +:+ String (zchar 10) v) in E.
    destruct (plain_cut _ _ _ _ _ _ special_tab special_nl Ha Hb E) as (_ & Hx & _). discriminate Hx.
  - rewrite !Cc, !sapp_assoc in E.
    change (a +:+ String (zchar 9) (String.concat tab_s (a' :: l) +:+ nl_s +:+ u) = b +:+ String (zchar 9) (String.concat tab_s (b' :: l') +:+ nl_s +:+ v)) in E.
    destruct (plain_cut _ _ _ _ _ _ special_tab special_tab Ha Hb E) as (-> & _ & E').
    destruct (IH ltac:(done) (b' :: l')) as [-> ->]; done.
Qed.
Lemma table_unique s r r' : is_table s r → is_table s r' → r = r'.
Proof.
  intros H. revert r'. induction H as [|cells rest rows Hn Hp _ IH]; intros r' H'.
  - inversion H' as [|cells rest rows Hn Hp _ E]; [done|]. exfalso.
    apply (f_equal bytes_of) in E. rewrite !bytes_of_app in E. change (bytes_of "") with (@nil ascii) in E. first [apply app_nil in E as [_ E] | symmetry in E; apply app_nil in E as [_ E]]. discriminate E.
  - inversion H' as [E|cells' rest' rows' Hn' Hp' Ht' E].
    + exfalso. apply (f_equal bytes_of) in E. rewrite !bytes_of_app in E. change (bytes_of "") with (@nil ascii) in E. first [apply app_nil in E as [_ E] | symmetry in E; apply app_nil in E as [_ E]]. discriminate E.
    + destruct (cells_cut cells cells' rest rest') as [-> ->]; try done. by rewrite (IH rows').
Qed.

(** ** What is seen of a cell *)
Definition seen_as (s t : string) : Prop := plain s ∧ ∀ rest, visible false (s +:+ rest) = t +:+ visible false rest.
Lemma seen_visible s t : seen_as s t → visible false s = t.
Proof. intros [_ H]. specialize (H ""). rewrite !sapp_nil_r in H. done. Qed.
Lemma seen_tidy s : tidy s → seen_as s s.
Proof. intros [H1 H2]. split; [done|]. intros rest. by apply visible_tidy. Qed.
Lemma seen_between p q s t : sgr p → sgr q → seen_as s t → seen_as (p +:+ s +:+ q) t.
Proof.
  intros Hp Hq [H1 H2]. split; [rewrite !plain_app; auto using sgr_plain|]. intros rest. rewrite !sapp_assoc.
  by rewrite visible_sgr, H2, visible_sgr by done.
Qed.
Lemma seen_decorated f s t : decorates f → seen_as s t → seen_as (f s) t.
Proof. intros (p & q & Hp & Hq & Hf) H. rewrite Hf by apply H. by apply seen_between. Qed.
Lemma decorates_normal : decorates normal.
Proof.
  assert (H : sgr (String esc "[0m")).
  { exists "0". split; [done|]. split; [by apply plainb_plain|]. apply (bool_decide_unpack _). by vm_compute. }
  exists (String esc "[0m"), (String esc "[0m"). split; [done|]. split; [done|]. done.
Qed.

Section Goterm.
  Context (bold : string → string) (color : tcolor → string → string).
  Context (Hb : decorates bold) (Hc : ∀ c, decorates (color c)).

  Lemma format_seen c : tidy (c_text c) → seen_as (format_cell bold color c) (c_text c).
  Proof.
    intros H. unfold format_cell. destruct (c_bold c); (apply seen_decorated; [auto using decorates_normal|]);
      (apply seen_decorated; [done|by apply seen_tidy]).
  Qed.
  Lemma print_cells_row l : Forall (λ c, tidy (c_text c)) l →
    ∃ cells, cells ≠ [] ∧ Forall plain cells ∧ print_cells bold color l = String.concat tab_s cells +:+ nl_s ∧
      map (visible false) cells = map c_text l ++ [""].
  Proof.
    induction 1 as [|c l H _ (cells & Hn & Hp & E & Hv)].
    - exists [""]. split; [done|]. split; [repeat constructor; by apply plainb_plain|]. done.
    - exists (format_cell bold color c :: cells). pose proof (format_seen c H) as Hs. split; [done|].
      split; [constructor; [apply Hs|done]|]. split.
      + cbn [print_cells]. rewrite E. destruct cells as [|x cells]; [done|].
        change (String.concat tab_s (format_cell bold color c :: x :: cells)) with (format_cell bold color c +:+ tab_s +:+ String.concat tab_s (x :: cells)).
        by rewrite !sapp_assoc.
      + cbn [map app]. by rewrite (seen_visible _ _ Hs), Hv.
  Qed.
  Lemma rows_table {A} (cells : A → list cell) (l : list A) : Forall (λ x, Forall (λ c, tidy (c_text c)) (cells x)) l →
    ∃ text rows, print_rows bold color cells (map Some l) = Ok text ∧ is_table text rows ∧
      Forall2 (λ x r, map (visible false) r = map c_text (cells x) ++ [""]) l rows.
  Proof.
    induction 1 as [|x l H _ (text & rows & E & Ht & Hf)]; [exists "", []; split; [done|]; split; constructor|].
    destruct (print_cells_row (cells x) H) as (r & Hn & Hp & Er & Hv).
    exists (print_cells bold color (cells x) +:+ text), (r :: rows). cbn [map print_rows]. rewrite E. split; [done|]. split.
    - rewrite Er, sapp_assoc. by constructor.
    - by constructor.
  Qed.
  Lemma header_row columns : columns ≠ [] → Forall tidy columns →
    ∃ cells, cells ≠ [] ∧ Forall plain cells ∧ header bold color columns = String.concat tab_s cells +:+ nl_s ∧
      map (visible false) cells = columns.
  Proof.
    intros Hne H. exists (map (λ s, bold (color Black s)) columns). split; [by destruct columns|].
    assert (Hs : Forall (λ s, seen_as (bold (color Black s)) s) columns).
    { eapply Forall_impl; [exact H|]. intros s Hx. apply seen_decorated; [done|]. apply seen_decorated; [done|by apply seen_tidy]. }
    split; [apply Forall_map; eapply Forall_impl; [exact Hs|]; by intros s [? _]|]. split; [done|].
    clear Hne H. rewrite map_map. induction Hs as [|s l Hx _ IH]; [done|]. cbn [map]. by rewrite (seen_visible _ _ Hx), IH.
  Qed.
End Goterm.

(** ** Averages *)
Lemma whole_to_int64 f n : whole f n → in_int64 n → f_to_int64 f = n.
Proof.
  unfold in_int64. destruct f as [s|s| |s m e]; cbn [whole f_to_int64]; try done.
  intros H Hn. specialize (H _ eq_refl) as [H0 H].
  assert (E : (if 0 <=? e then Z.pos m * 2 ^ e else Z.pos m / 2 ^ (- e)) = if s then - n else n).
  { case_decide as He.
    - rewrite (proj2 (Z.leb_le 0 e)) by done. by rewrite H.
    - rewrite (proj2 (Z.leb_gt 0 e)) by lia. symmetry. apply Z.div_unique with (r := Z.pos m - (if s then - n else n) * 2 ^ (- e)); lia. }
  rewrite E. assert (E2 : (if s then - (if s then - n else n) else (if s then - n else n)) = n) by (destruct s; lia). rewrite E2.
  rewrite (proj2 (Z.leb_le _ _)), (proj2 (Z.ltb_lt _ _)) by lia. done.
Qed.

Section Tables.
  Context (bold : string → string) (color : tcolor → string → string).
  Context (Hb : decorates bold) (Hc : ∀ c, decorates (color c)).

  Lemma job_cells_tidy j : tidy (aj_name j) → ordinary j → Forall (λ c, tidy (c_text c)) (job_cells j) ∧ job_row j (map c_text (job_cells j) ++ [""]).
  Proof.
    intros Ht (Hi & (na & Wa & Ia) & (ns & Ws & Is)). rewrite !Forall_cons in Hi. destruct Hi as (I1 & I2 & I3 & I4 & I5 & I6 & I7 & I8 & I9 & _).
    split.
    - unfold job_cells. rewrite (whole_to_int64 _ _ Wa Ia), (whole_to_int64 _ _ Ws Is).
      repeat first [apply Forall_nil_2 | apply Forall_cons_2]; cbn [c_text cell_string cell_int64 cell_time]; try done;
        first [eapply int_numeral_tidy, dec_int_numeral; eassumption | eapply cell_text_tidy, thm_cell; eassumption].
    - unfold job_cells. rewrite (whole_to_int64 _ _ Wa Ia), (whole_to_int64 _ _ Ws Is).
      cbn [map app c_text cell_string cell_int64 cell_time]. do 11 eexists. exists na, ns. split; [reflexivity|].
      unfold num_cell. repeat split_and; try done; first [by apply dec_int_numeral | by apply thm_cell].
  Qed.
  Lemma thm_jobs_table l : Forall (λ j, tidy (aj_name j) ∧ ordinary j) l →
    ∃ text head rows, jobs_table bold color (map Some l) = Ok text ∧ is_table text (head :: rows) ∧
      map (visible false) head = job_columns ∧ Forall2 (λ j cells, job_row j (map (visible false) cells)) l rows.
  Proof.
    intros H. destruct (rows_table bold color Hb Hc job_cells l) as (text & rows & E & Ht & Hf).
    { eapply Forall_impl; [exact H|]. intros j [H1 H2]. by apply job_cells_tidy. }
    destruct (header_row bold color Hb Hc job_columns) as (head & Hn & Hp & Eh & Hv); [done|repeat constructor; by apply tidyb_tidy|].
    exists (header bold color job_columns +:+ text), head, rows. unfold jobs_table. rewrite E. split; [done|].
    split; [rewrite Eh, sapp_assoc; by constructor|]. split; [done|].
    clear E Ht Eh. induction Hf as [|j r l rows Hr _ IH]; [constructor|]. apply Forall_cons in H as [[H1 H2] H]. constructor; [|by apply IH].
    rewrite Hr. by apply job_cells_tidy.
  Qed.
  Lemma host_cells_tidy fmt h : tidy (hs_hp h) → tidy (hs_err h) → tidy (fmt (hs_check h)) → in_int64 (hs_nanos h) →
    Forall (λ c, tidy (c_text c)) (host_cells fmt h) ∧ host_row fmt h (map c_text (host_cells fmt h) ++ [""]).
  Proof.
    intros H1 H2 H3 H4. destruct (thm_host_cell h) as (T1 & T2 & T3 & T4). unfold host_cells.
    assert (Hs : tidy (host_cell h).1).
    { destruct (host_cell h).2; [rewrite T2 by done; by apply tidyb_tidy|].
      destruct (decide (hs_check h = 0)) as [E|E]; [rewrite T3 by done; by apply tidyb_tidy|].
      rewrite T4 by done. apply tidy_app. split; [by apply tidyb_tidy|done]. }
    destruct (host_cell h) as [st su]. cbn [fst snd] in *. split.
    - repeat first [apply Forall_nil_2 | apply Forall_cons_2]; cbn [c_text cell_string cell_time]; try done. eapply cell_text_tidy, thm_cell; eassumption.
    - exists st, (cell_nanos (hs_nanos h)). split; [done|]. split; [by apply thm_cell|].
      split; [intros H; apply T2; by apply T1|].
      assert (Hf : ¬ (hs_code h = 200 ∧ hs_err h = "") → su = false) by (intros H; destruct su; [exfalso; apply H; by apply T1|done]).
      split; intros H; [apply T3|apply T4]; by apply Hf.
  Qed.
  Lemma thm_hosts_table fmt l : Forall (λ h, tidy (hs_hp h) ∧ tidy (hs_err h) ∧ tidy (fmt (hs_check h)) ∧ in_int64 (hs_nanos h)) l →
    ∃ text head rows, hosts_table bold color fmt (map Some l) = Ok text ∧ is_table text (head :: rows) ∧
      map (visible false) head = host_columns ∧ Forall2 (λ h cells, host_row fmt h (map (visible false) cells)) l rows.
  Proof.
    intros H. destruct (rows_table bold color Hb Hc (host_cells fmt) l) as (text & rows & E & Ht & Hf).
    { eapply Forall_impl; [exact H|]. intros h (H1 & H2 & H3 & H4). by apply host_cells_tidy. }
    destruct (header_row bold color Hb Hc host_columns) as (head & Hn & Hp & Eh & Hv); [done|repeat constructor; by apply tidyb_tidy|].
    exists (header bold color host_columns +:+ text), head, rows. unfold hosts_table. rewrite E. split; [done|].
    split; [rewrite Eh, sapp_assoc; by constructor|]. split; [done|].
    clear E Ht Eh. induction Hf as [|j r l rows Hr _ IH]; [constructor|]. apply Forall_cons in H as [(H1 & H2 & H3 & H4) H]. constructor; [|by apply IH].
    rewrite Hr. by apply host_cells_tidy.
  Qed.
End Tables.

(** ** Colours *)
Lemma thm_host_colours fmt h :
  map c_color (host_cells fmt h) =
    [Black; if decide (hs_code h = 200 ∧ hs_err h = "") then Green else Red; Black; Black].
Proof.
  unfold host_cells, host_cell. case_decide as H.
  - destruct H as [H1 H2]. rewrite (proj2 (Z.eqb_eq _ _) H1), bool_decide_true by done. done.
  - assert ((hs_code h =? 200) && bool_decide (hs_err h = "") = false) as ->; [|done].
    apply andb_false_iff. destruct (Z.eqb_spec (hs_code h) 200) as [H1|H1]; [right|by left].
    apply bool_decide_eq_false. intros H2. by apply H.
Qed.
Lemma thm_job_colours j :
  map c_color (job_cells j) !! 1%nat = Some (if decide (aj_count j = aj_success j) then Green else Black) ∧
  map c_color (job_cells j) !! 2%nat = Some (if decide (aj_count j = aj_success j) then Green else Black) ∧
  map c_color (job_cells j) !! 3%nat = Some (if decide (0 < aj_verror j) then Red else Black) ∧
  map c_color (job_cells j) !! 4%nat = Some (if decide (0 < aj_panic j) then Red else Black) ∧
  map c_color (job_cells j) !! 5%nat = Some (if decide (0 < aj_error j) then Red else Black) ∧
  map c_color (job_cells j) !! 6%nat = Some (if decide (0 < aj_junk j) then Red else Black) ∧
  ∀ i, (i = 0 ∨ 7 ≤ i < 12)%nat → map c_color (job_cells j) !! i = Some Black.
Proof.
  assert (Hz : ∀ n, (if 0 <? n then Red else Black) = if decide (0 < n) then Red else Black).
  { intros n. case_decide as H; [by rewrite (proj2 (Z.ltb_lt 0 n))|by rewrite (proj2 (Z.ltb_ge 0 n)) by lia]. }
  assert (He : (if aj_count j =? aj_success j then Green else Black) = if decide (aj_count j = aj_success j) then Green else Black).
  { case_decide as H; [by rewrite (proj2 (Z.eqb_eq _ _))|by rewrite (proj2 (Z.eqb_neq _ _))]. }
  unfold job_cells. cbn [map cell_string cell_int64 cell_time c_color]. cbn [lookup list_lookup]. rewrite He, !Hz. do 6 (split; [done|]).
  intros i [->|H]; [done|]. do 12 (destruct i as [|i]; [first [lia|done]|]). lia.
Qed.

(** ** goterm's functions and some tables *)
Definition z_bold (s : string) : string := String esc "[1m" +:+ s +:+ String esc "[0m".
Definition z_color (c : tcolor) (s : string) : string :=
  String esc (match c with Black => "[30m" | Green => "[32m" | Red => "[31m" end) +:+ s +:+ String esc "[0m".
Lemma z_sgr d : plainb d = true → "m"%char ∉ bytes_of d → sgr (String esc "[" +:+ d +:+ "m").
Proof. intros H1 H2. exists d. split; [done|]. split; [by apply plainb_plain|done]. Qed.
Lemma z_decorates : decorates z_bold ∧ ∀ c, decorates (z_color c).
Proof.
  assert (H : ∀ d, plainb d = true → bool_decide ("m"%char ∉ bytes_of d) = true → sgr (String esc "[" +:+ d +:+ "m")).
  { intros d H1 H2. apply z_sgr; [done|]. by apply bool_decide_eq_true in H2. }
  split; [|intros c].
  - exists (String esc "[1m"), (String esc "[0m"). split; [by apply (H "1")|]. split; [by apply (H "0")|]. done.
  - exists (String esc (match c with Black => "[30m" | Green => "[32m" | Red => "[31m" end)), (String esc "[0m").
    split; [destruct c; [by apply (H "30")|by apply (H "32")|by apply (H "31")]|]. split; [by apply (H "0")|]. done.
Qed.
Definition z_job (name : string) : ajob := AJob name 3 2 0 0 1 0 4500000 f0 1000 3000000 (fofZ 1500000) f0.
Lemma z_job_ok : tidy (aj_name (z_job "/jobs")) ∧ ordinary (z_job "/jobs").
Proof.
  split; [by apply tidyb_tidy|]. split; [unfold in_int64; cbn [z_job aj_count aj_success aj_verror aj_panic aj_error aj_junk aj_sum aj_min aj_max]; repeat (apply Forall_cons_2; [lia|]); by apply Forall_nil_2|]. split.
  - exists 1500000. split; [|unfold in_int64; lia]. 
    assert (E : aj_avg (z_job "/jobs") = S754_finite false 6442450944000000 (-32)) by (vm_compute; reflexivity). rewrite E.
    intros a <-. split; [lia|]. rewrite decide_False by lia. change (- (-32)) with 32. lia.
  - exists 0. split; [done|unfold in_int64; lia].
Qed.
Definition z_tabbed : ajob := z_job (String "a" (String (zchar 9) "b")).
Definition z_two_lines : ajob := z_job (String "a" (String (zchar 10) "b")).
(** rows written out *)
Fixpoint write_rows (rows : list (list string)) : string :=
  match rows with [] => "" | r :: rows => String.concat tab_s r +:+ nl_s +:+ write_rows rows end.
Definition rows_ok (rows : list (list string)) : bool := forallb (λ r, negb (bool_decide (r = [])) && forallb plainb r) rows.
Lemma write_rows_table rows : rows_ok rows = true → is_table (write_rows rows) rows.
Proof.
  induction rows as [|r rows IH]; intros H; [constructor|]. unfold rows_ok in H. cbn [forallb] in H. apply andb_true_iff in H as [H Hr].
  apply andb_true_iff in H as [Hn Hp]. cbn [write_rows]. constructor; [by apply negb_true_iff, bool_decide_eq_false in Hn| |by apply IH].
  rewrite forallb_forall in Hp. apply Forall_forall. intros x Hx. apply plainb_plain, Hp. by apply elem_of_list_In.
Qed.
Definition read_rows (text : string) : list (list string) := map (split_on (zchar 9)) (removelast (split_on (zchar 10) text)).
Definition z_text (j : ajob) : string := match jobs_table z_bold z_color [Some j] with Ok t => t | Crash _ => "" end.
Lemma z_read j : jobs_table z_bold z_color [Some j] = Ok (z_text j) → rows_ok (read_rows (z_text j)) = true →
  write_rows (read_rows (z_text j)) = z_text j → is_table (z_text j) (read_rows (z_text j)).
Proof. intros _ H E. rewrite <- E at 1. by apply write_rows_table. Qed.
Lemma z_tabbed_table : ∃ text rows, jobs_table z_bold z_color [Some z_tabbed] = Ok text ∧ is_table text rows ∧
  map (map (visible false)) rows = [job_columns; ["a"; "b"; "3"; "2"; "0"; "0"; "1"; "0"; "1500 " +:+ mu_s; "0 ns"; "1000 ns"; "3 ms"; "4 ms"; ""]].
Proof.
  exists (z_text z_tabbed), (read_rows (z_text z_tabbed)). split; [by vm_compute|]. split; [|by vm_compute].
  apply z_read; by vm_compute.
Qed.
Lemma z_two_lines_table : ∃ text rows, jobs_table z_bold z_color [Some z_two_lines] = Ok text ∧ is_table text rows ∧
  map (map (visible false)) rows = [job_columns; ["a"]; ["b"; "3"; "2"; "0"; "0"; "1"; "0"; "1500 " +:+ mu_s; "0 ns"; "1000 ns"; "3 ms"; "4 ms"; ""]].
Proof.
  exists (z_text z_two_lines), (read_rows (z_text z_two_lines)). split; [by vm_compute|]. split; [|by vm_compute].
  apply z_read; by vm_compute.
Qed.
Lemma z_job_table : ∃ text rows, jobs_table z_bold z_color [Some (z_job "/jobs")] = Ok text ∧ is_table text rows ∧
  map (map (visible false)) rows = [job_columns; ["/jobs"; "3"; "2"; "0"; "0"; "1"; "0"; "1500 " +:+ mu_s; "0 ns"; "1000 ns"; "3 ms"; "4 ms"; ""]].
Proof.
  exists (z_text (z_job "/jobs")), (read_rows (z_text (z_job "/jobs"))). split; [by vm_compute|]. split; [|by vm_compute].
  apply z_read; by vm_compute.
Qed.
Lemma thm_null_row {A} bold color (cells : A → list cell) l l' : print_rows bold color cells (l ++ None :: l') = Crash "invalid memory address or nil pointer dereference".
Proof. induction l as [|[x|] l IH]; cbn; [done|by rewrite IH|done]. Qed.
Lemma thm_null_tables bold color l l' l1 l2 fmt :
  jobs_table bold color (l ++ None :: l') = Crash "invalid memory address or nil pointer dereference" ∧
  hosts_table bold color fmt (l1 ++ None :: l2) = Crash "invalid memory address or nil pointer dereference".
Proof. unfold jobs_table, hosts_table. by rewrite !thm_null_row. Qed.
Lemma thm_row_refuted : ∃ text, jobs_table z_bold z_color [Some z_tabbed] = Ok text ∧
  ∀ head rows, is_table text (head :: rows) → ¬ Forall2 (λ j cells, job_row j (map (visible false) cells)) [z_tabbed] rows.
Proof.
  destruct z_tabbed_table as (text & rows' & E & Ht & Hv). exists text. split; [done|]. intros head rows H F.
  pose proof (table_unique _ _ _ Ht H) as ->. apply Forall2_cons_inv_l in F as (r & rest & Hr & _ & ->).
  injection Hv as _ Hv _. rewrite Hv in Hr. destruct Hr as (c & su & ve & pa & er & ju & av & sd & mn & mx & sm & na & ns & El & _).
  apply (f_equal length) in El. discriminate El.
Qed.
Lemma thm_line_refuted : ∃ text, jobs_table z_bold z_color [Some z_two_lines] = Ok text ∧
  ∀ head rows, is_table text (head :: rows) → length rows = 2%nat.
Proof.
  destruct z_two_lines_table as (text & rows' & E & Ht & Hv). exists text. split; [done|]. intros head rows H.
  pose proof (table_unique _ _ _ Ht H) as ->. apply (f_equal length) in Hv. rewrite map_length in Hv. by injection Hv.
Qed.
