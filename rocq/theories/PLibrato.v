(** * Proofs about the Librato sink *)
From Verif Require Import SLibrato PUtf8 PContent PApi PWriter.

(** ** Names *)
Lemma event_keys_full c job ev suf : suf ≠ "" →
  event_keys c job ev suf = (full c [c_san c ev; suf], full c [c_san c job; c_san c ev; suf]).
Proof.
  intros Hs. unfold event_keys, full, dotted. rewrite (decide_False (P := suf = "")) by done. case_decide; cbn [String.concat]; by rewrite ?sapp_assoc.
Qed.
Lemma full_error c l : l ≠ [] → full c (l ++ ["error.count"]) = full c (l ++ ["error"; "count"]).
Proof.
  intros Hl. unfold full, dotted.
  assert (G : ∀ l, String.concat "." (l ++ ["error.count"]) = String.concat "." (l ++ ["error"; "count"])).
  { clear. induction l as [|x l IH]; [done|]. destruct l as [|y l]; [done|].
    change (x +:+ "." +:+ String.concat "." ((y :: l) ++ ["error.count"]) = x +:+ "." +:+ String.concat "." ((y :: l) ++ ["error"; "count"])).
    by rewrite IH. }
  case_decide; [apply G|]. change (c_prefix c :: l ++ ?x) with ((c_prefix c :: l) ++ x). apply G.
Qed.
Lemma full_snoc c l z : l ≠ [] → ∃ x, full c (l ++ [z]) = x +:+ z.
Proof.
  intros Hl. unfold full, dotted.
  assert (G : ∀ l, l ≠ [] → ∃ x, String.concat "." (l ++ [z]) = x +:+ z).
  { clear. induction l as [|x l IH]; [done|]. intros _. destruct l as [|y l].
    - exists (x +:+ "."). cbn. by rewrite sapp_assoc.
    - destruct (IH ltac:(done)) as [u Hu]. exists (x +:+ "." +:+ u).
      change (x +:+ "." +:+ String.concat "." ((y :: l) ++ [z]) = (x +:+ "." +:+ u) +:+ z). by rewrite Hu, !sapp_assoc. }
  case_decide; [by apply G|]. change (c_prefix c :: l ++ ?x) with ((c_prefix c :: l) ++ x). by apply G.
Qed.
Lemma bytes_of_app a b : bytes_of (a +:+ b) = bytes_of a ++ bytes_of b.
Proof. induction a as [|x a IH]; [done|]. rewrite sapp_cons. cbn. by rewrite IH. Qed.
Lemma last_byte x z b : last (bytes_of z) = Some b → last (bytes_of (x +:+ z)) = Some b.
Proof. intros H. rewrite bytes_of_app, last_app, H. done. Qed.
Lemma counted_last c job e k : k ∈ counted c job e → last (bytes_of k) = Some "t"%char.
Proof.
  assert (G : ∀ l, l ≠ [] → last (bytes_of (full c (l ++ ["count"]))) = Some "t"%char).
  { intros l Hl. destruct (full_snoc c l "count" Hl) as [x ->]. by apply last_byte. }
  destruct e; cbn; try (intros Hk; by inversion Hk); intros [->|[->|Hk]%elem_of_cons]%elem_of_cons; try by inversion Hk.
  - apply (G [_]); done.
  - apply (G [_; _]); done.
  - apply (G [_; _]); done.
  - apply (G [_; _; _]); done.
Qed.
Lemma measured_last c job e k v : (k, v) ∈ measured c job e → last (bytes_of k) = Some "g"%char ∨ last (bytes_of k) = Some "e"%char.
Proof.
  assert (G : ∀ l z b, l ≠ [] → last (bytes_of z) = Some b → last (bytes_of (full c (l ++ [z]))) = Some b).
  { intros l z b Hl Hz. destruct (full_snoc c l z Hl) as [x ->]. by apply last_byte. }
  destruct e; cbn; try (intros Hk; by inversion Hk).
  - intros [[= -> ->]|[[= -> ->]|Hk]%elem_of_cons]%elem_of_cons; [| |by inversion Hk]; left; [by apply (G [_])|by apply (G [_; _])].
  - intros [[= -> ->]|[[= -> ->]|Hk]%elem_of_cons]%elem_of_cons; [| |by inversion Hk]; right; [by apply (G [_])|by apply (G [_; _])].
  - intros [[= -> ->]|Hk]%elem_of_cons; [|by inversion Hk]. left. by apply (G [_; _]).
Qed.

(** ** Accumulation *)
Definition occ (k : string) (names : list string) : Z := Z.of_nat (length (filter (λ x, x = k) names)).
Definition counters_ok (names : list string) (m : counters) : Prop :=
  ∀ k, m !! k = if decide (occ k names = 0) then None else Some (w64 (occ k names)).
Lemma occ_app k n1 n2 : occ k (n1 ++ n2) = occ k n1 + occ k n2.
Proof. unfold occ. rewrite filter_app, app_length. lia. Qed.
Lemma occ_one k x : occ k [x] = if decide (x = k) then 1 else 0.
Proof. unfold occ. rewrite filter_cons. by case_decide. Qed.
Lemma inc_ok names m k : counters_ok names m → counters_ok (names ++ [k]) (inc m k).
Proof.
  intros H k'. unfold inc. rewrite occ_app, occ_one. assert (0 ≤ occ k' names) by (unfold occ; lia). destruct (decide (k = k')) as [Hk|Hk].
  - subst k'. rewrite lookup_insert, decide_False by lia. f_equal. unfold mget. rewrite (H k).
    case_decide as Hz; cbn; [rewrite Hz; done|]. by rewrite w64_add_l.
  - rewrite lookup_insert_ne by done. rewrite Z.add_0_r. apply H.
Qed.
Definition values (k : string) (ms : list (string * f64)) : list f64 := map snd (filter (λ x : string * f64, x.1 = k) ms).
Definition timers_ok (ms : list (string * f64)) (m : timers) : Prop :=
  ∀ k, match values k ms with [] => m !! k = None | _ => ∃ g, m !! k = Some g ∧ summarises (values k ms) g end.
Lemma fltb_trans a b d : fltb a b = true → fltb b d = true → fltb a d = true.
Proof.
  intros H1 H2. assert (a ≠ S754_nan) by (by intros ->). assert (b ≠ S754_nan) by (intros ->; by destruct d).
  assert (d ≠ S754_nan) by (intros ->; by destruct b).
  rewrite fltb_key in *; try done. unfold klt in *. destruct (fkey a), (fkey b), (fkey d); cbn in *; lia.
Qed.
Lemma fltb_irrefl a : fltb a a = false.
Proof. destruct a eqn:E; [| |done|]; apply fltb_false; try done; unfold klt; destruct (fkey _); cbn; lia. Qed.
Lemma summarises_one v : summarises [v] (LGauge 1 v v v (fmul v v)).
Proof.
  exists v, []. split; [done|]. split; [done|]. split; [done|]. split; [done|].
  split; (split; [apply elem_of_list_singleton; done|intros y ->%elem_of_list_singleton; apply fltb_irrefl]).
Qed.
Lemma summarises_snoc l g v : summarises l g →
  summarises (l ++ [v]) (LGauge (w64 (lg_count g + 1)) (fadd (lg_sum g) v)
                 (if fltb v (lg_min g) then v else lg_min g) (if fgtb v (lg_max g) then v else lg_max g)
                 (fadd (lg_ss g) (fmul v v))).
Proof.
  intros (x&l'&->&Hc&Hs&Hss&[Hm1 Hm2]&[HM1 HM2]). exists x, (l' ++ [v]). split; [done|]. cbn [lg_count lg_sum lg_min lg_max lg_ss].
  split. { rewrite Hc, w64_add_l. f_equal. cbn. rewrite app_length. cbn. lia. }
  split. { by rewrite fold_left_app, Hs. }
  split. { by rewrite map_app, fold_left_app, Hss. }
  split.
  - destruct (fltb v (lg_min g)) eqn:E.
    + split; [apply elem_of_app; right; by apply elem_of_list_singleton|]. intros y [Hy| ->%elem_of_list_singleton]%elem_of_app; [|apply fltb_irrefl].
      destruct (fltb y v) eqn:E2; [|done]. specialize (Hm2 y Hy). by rewrite (fltb_trans _ _ _ E2 E) in Hm2.
    + split; [apply elem_of_app; by left|]. intros y [Hy| ->%elem_of_list_singleton]%elem_of_app; [by apply Hm2|done].
  - unfold fgtb. change (SFltb (lg_max g) v) with (fltb (lg_max g) v). destruct (fltb (lg_max g) v) eqn:E.
    + split; [apply elem_of_app; right; by apply elem_of_list_singleton|]. intros y [Hy| ->%elem_of_list_singleton]%elem_of_app; [|apply fltb_irrefl].
      destruct (fltb v y) eqn:E2; [|done]. specialize (HM2 y Hy). by rewrite (fltb_trans _ _ _ E E2) in HM2.
    + split; [apply elem_of_app; by left|]. intros y [Hy| ->%elem_of_list_singleton]%elem_of_app; [by apply HM2|done].
Qed.
Lemma values_snoc k ms k' v : values k (ms ++ [(k', v)]) = values k ms ++ (if decide (k' = k) then [v] else []).
Proof. unfold values. rewrite filter_app, map_app. f_equal. rewrite filter_cons. cbn. by case_decide. Qed.
Lemma measure_ok ms m k v : timers_ok ms m → timers_ok (ms ++ [(k, v)]) (measure m k v).
Proof.
  intros H k'. rewrite values_snoc. specialize (H k'). case_decide as Hk.
  - subst k'. destruct (values k ms) as [|x l] eqn:Ev.
    + cbn [app]. exists (LGauge 1 v v v (fmul v v)). unfold measure. rewrite H, lookup_insert. split; [done|]. apply summarises_one.
    + destruct H as (g&Hg&Hs). cbn [app]. unfold measure. rewrite Hg. eexists. rewrite lookup_insert. split; [reflexivity|].
      change (x :: l ++ [v]) with ((x :: l) ++ [v]). by apply summarises_snoc.
  - rewrite app_nil_r. assert (measure m k v !! k' = m !! k') as -> by (unfold measure; destruct (m !! k); by rewrite lookup_insert_ne). done.
Qed.
Definition names_of (c : lconf) (cmds : lcmds) : list string := concat (map (λ '(job, e), counted c job e) cmds).
Definition measures_of (c : lconf) (cmds : lcmds) : list (string * f64) := concat (map (λ '(job, e), measured c job e) cmds).
Lemma names_of_snoc c cmds job e : names_of c (cmds ++ [(job, e)]) = names_of c cmds ++ counted c job e.
Proof. unfold names_of. by rewrite map_app, concat_app; cbn; rewrite app_nil_r. Qed.
Lemma measures_of_snoc c cmds job e : measures_of c (cmds ++ [(job, e)]) = measures_of c cmds ++ measured c job e.
Proof. unfold measures_of. by rewrite map_app, concat_app; cbn; rewrite app_nil_r. Qed.
Lemma process_ok c s cmds job e :
  counters_ok (names_of c cmds) (lb_counters s) → timers_ok (measures_of c cmds) (lb_timers s) →
  counters_ok (names_of c (cmds ++ [(job, e)])) (lb_counters (lib_process c s job e)) ∧
  timers_ok (measures_of c (cmds ++ [(job, e)])) (lb_timers (lib_process c s job e)).
Proof.
  intros Hc Ht. rewrite names_of_snoc, measures_of_snoc. destruct e as [ev|ev msg|ev n|ev v|st n]; cbn [lib_process].
  - rewrite event_keys_full by done. cbn. split; [|by rewrite app_nil_r].
    change ([?a; ?b]) with ([a] ++ [b]). rewrite app_assoc. by apply inc_ok, inc_ok.
  - rewrite event_keys_full by done. cbn. split; [|by rewrite app_nil_r].
    pose proof (full_error c [c_san c ev] ltac:(done)) as E1. pose proof (full_error c [c_san c job; c_san c ev] ltac:(done)) as E2. cbn in E1, E2.
    rewrite E1, E2. match goal with |- counters_ok (_ ++ [?a; ?b]) _ => change [a; b] with ([a] ++ [b]) end. rewrite app_assoc. by apply inc_ok, inc_ok.
  - rewrite event_keys_full by done. cbn. split; [by rewrite app_nil_r|].
    match goal with |- timers_ok (_ ++ [?a; ?b]) _ => change [a; b] with ([a] ++ [b]) end. rewrite app_assoc. by apply measure_ok, measure_ok.
  - rewrite event_keys_full by done. cbn. split; [by rewrite app_nil_r|].
    match goal with |- timers_ok (_ ++ [?a; ?b]) _ => change [a; b] with ([a] ++ [b]) end. rewrite app_assoc. by apply measure_ok, measure_ok.
  - cbn. split; [by rewrite app_nil_r|].
    match goal with |- timers_ok (_ ++ [(?k1, _)]) (measure _ ?k2 _) => assert (k1 = k2) as -> end; [|by apply measure_ok].
    unfold full, dotted.
    assert (match st with 0 => "success" | 1 => "validation_error" | 2 => "panic" | 3 => "error" | 4 => "junk" | _ => "" end = status_string st) as ->.
    { pose proof (status_named_string st) as Hn. inversion Hn as [E1 E2|E1 E2|E1 E2|E1 E2|E1 E2|? Hns E1 E2]; try done.
      destruct st as [|p|p]; [lia| |done]. destruct p as [[[p|p|]|[p|p|]|]|[[p|p|]|[p|p|]|]|]; try done; lia. }
    case_decide; cbn [String.concat]; by rewrite ?sapp_assoc.
Qed.
Lemma since_flush_app tr1 : ∀ tr2 acc, since_flush acc (tr1 ++ tr2) = since_flush (since_flush acc tr1) tr2.
Proof. induction tr1 as [|op tr1 IH]; intros tr2 acc; [done|]. destruct op; cbn; apply IH. Qed.
Lemma lib_run_app c tr1 tr2 s : lib_run c s (tr1 ++ tr2) = lib_run c (lib_run c s tr1) tr2.
Proof. unfold lib_run. apply fold_left_app. Qed.
Lemma run_ok c tr : let cmds := since_flush [] tr in
  counters_ok (names_of c cmds) (lb_counters (lib_run c lib0 tr)) ∧ timers_ok (measures_of c cmds) (lb_timers (lib_run c lib0 tr)).
Proof.
  induction tr as [|op tr IH] using rev_ind; cbn.
  - split; intros k; cbn; by rewrite lookup_empty.
  - rewrite since_flush_app, lib_run_app. destruct op as [job e|now ok]; cbn.
    + destruct IH. by apply process_ok.
    + split; intros k; cbn; by rewrite lookup_empty.
Qed.
Lemma names_in c cmds k : occ k (names_of c cmds) ≠ 0 → last (bytes_of k) = Some "t"%char.
Proof.
  intros H. assert (Hk : k ∈ names_of c cmds).
  { unfold occ in H. destruct (filter (λ x, x = k) (names_of c cmds)) as [|y l] eqn:E; [done|].
    assert (Hy : y ∈ filter (λ x, x = k) (names_of c cmds)) by (rewrite E; left). apply elem_of_list_filter in Hy as [-> Hy]. done. }
  unfold names_of in Hk. apply elem_of_list_In, in_concat in Hk as (l&Hl&Hk). apply in_map_iff in Hl as ([job e]&<-&_).
  eapply counted_last. by apply elem_of_list_In.
Qed.
Lemma values_in c cmds k : values k (measures_of c cmds) ≠ [] → last (bytes_of k) ≠ Some "t"%char.
Proof.
  intros H. assert (Hk : ∃ v, (k, v) ∈ measures_of c cmds).
  { unfold values in H. destruct (filter (λ x : string * f64, x.1 = k) (measures_of c cmds)) as [|[y v] l] eqn:E; [done|].
    assert (Hy : (y, v) ∈ filter (λ x : string * f64, x.1 = k) (measures_of c cmds)) by (rewrite E; left).
    apply elem_of_list_filter in Hy as [Hy1 Hy]. cbn in Hy1. subst. eauto. }
  destruct Hk as [v Hk]. unfold measures_of in Hk. apply elem_of_list_In, in_concat in Hk as (l&Hl&Hk). apply in_map_iff in Hl as ([job e]&<-&_).
  apply elem_of_list_In, measured_last in Hk as [->| ->]; done.
Qed.
Lemma gauges_batch c s cmds : counters_ok (names_of c cmds) (lb_counters s) → timers_ok (measures_of c cmds) (lb_timers s) →
  batch c cmds (lib_gauges s).
Proof.
  intros Hc Ht k. unfold lib_gauges. change (hits c k cmds) with (occ k (names_of c cmds)). change (samples c k cmds) with (values k (measures_of c cmds)).
  specialize (Hc k). specialize (Ht k). rewrite lookup_union, !lookup_fmap, Hc.
  assert (0 ≤ occ k (names_of c cmds)) by (unfold occ; lia).
  case_decide as H0.
  - destruct (values k (measures_of c cmds)) as [|x l] eqn:Ev.
    + left. rewrite Ht. done.
    + right. right. destruct Ht as (g&Hg&Hs). split; [done|]. exists g. rewrite Hg. done.
  - right. left. assert (values k (measures_of c cmds) = []) as Ev.
    { destruct (decide (values k (measures_of c cmds) = [])); [done|]. apply values_in in n. by apply names_in in H0. }
    rewrite Ev in *. rewrite Ht. split; [lia|]. done.
Qed.
Lemma cmds_nonempty c cmds s : counters_ok (names_of c cmds) (lb_counters s) → timers_ok (measures_of c cmds) (lb_timers s) →
  (lb_timers s = ∅ ∧ lb_counters s = ∅) ↔ cmds = [].
Proof.
  intros Hc Ht. split.
  - intros [E1 E2]. destruct cmds as [|[job e] cmds]; [done|]. exfalso. rewrite E1 in Ht. rewrite E2 in Hc.
    assert (Hcnt : ∀ k, k ∉ names_of c ((job, e) :: cmds)).
    { intros k Hk. specialize (Hc k). rewrite lookup_empty in Hc. case_decide as H0; [|done].
      unfold occ in H0. assert (filter (λ x, x = k) (names_of c ((job, e) :: cmds)) = []) as En by (apply nil_length_inv; lia).
      assert (Hin : k ∈ filter (λ x, x = k) (names_of c ((job, e) :: cmds))) by (apply elem_of_list_filter; done). rewrite En in Hin. inversion Hin. }
    assert (Hms : ∀ k v, (k, v) ∉ measures_of c ((job, e) :: cmds)).
    { intros k v Hk. specialize (Ht k). destruct (values k _) as [|x l] eqn:Ev; [|destruct Ht as (g&Hg&_); by rewrite lookup_empty in Hg].
      assert (Hin : v ∈ values k (measures_of c ((job, e) :: cmds))).
      { unfold values. apply elem_of_list_fmap. exists (k, v). split; [done|]. apply elem_of_list_filter. done. }
      rewrite Ev in Hin. inversion Hin. }
    unfold names_of in Hcnt. unfold measures_of in Hms. cbn [map concat] in *.
    destruct e; cbn in *; try (eapply Hcnt; left); eapply Hms; left.
  - intros ->. split; apply map_eq; intros k; rewrite lookup_empty.
    + apply (Ht k).
    + rewrite (Hc k). done.
Qed.
Lemma marshals_finite x : ffinite x = true ↔ finite x.
Proof. unfold finite. destruct x; cbn; split; try done; try (by intros [H1 H2]); [intros [_ H]; by destruct (H s)]. Qed.
Lemma marshals_rep c s cmds : counters_ok (names_of c cmds) (lb_counters s) → timers_ok (measures_of c cmds) (lb_timers s) →
  forallb (λ kv, lg_marshals kv.2) (map_to_list (lb_timers s)) = true ↔ representable (lib_gauges s).
Proof.
  intros Hc Ht. rewrite forallb_forall. unfold representable.
  assert (G : ∀ g, lg_marshals g = true ↔ finite (lg_sum g) ∧ finite (lg_min g) ∧ finite (lg_max g) ∧ finite (lg_ss g)).
  { intros g. unfold lg_marshals. rewrite !andb_true_iff, !marshals_finite. tauto. }
  split.
  - intros H k g Hk. apply G. apply (H (k, g)). apply elem_of_list_In, elem_of_map_to_list.
    destruct (gauges_batch c s cmds Hc Ht k) as [(_&_&E)|[(_&_&E)|(H0&g'&Hs&E)]]; rewrite E in Hk; try done. injection Hk as ->.
    unfold lib_gauges in E. rewrite lookup_union, !lookup_fmap, (Hc k) in E. change (hits c k cmds) with (occ k (names_of c cmds)) in H0.
    rewrite decide_True in E by done. destruct (lb_timers s !! k); cbn in E; [|done]. by injection E as ->.
  - intros H [k g] Hin. cbn. apply G. apply (H k). apply elem_of_list_In, elem_of_map_to_list in Hin.
    unfold lib_gauges. rewrite lookup_union, !lookup_fmap, (Hc k), Hin. case_decide as H0; [done|].
    exfalso. specialize (Ht k). rewrite Hin in Ht. change (occ k (names_of c cmds) ≠ 0) in H0. apply names_in in H0.
    destruct (decide (values k (measures_of c cmds) = [])) as [E|n]; [by rewrite E in Ht|]. by apply values_in in n.
Qed.

Definition posts (c : lconf) (tr : list lop) : list (lpost * bool) := lb_posts (lib_run c lib0 tr).
Lemma thm_batch c tr now ok : let cmds := since_flush [] tr in
  (cmds = [] → posts c (tr ++ [LFlush now ok]) = posts c tr) ∧
  (cmds ≠ [] → ∃ b, batch c cmds b ∧
     (representable b → posts c (tr ++ [LFlush now ok]) = posts c tr ++ [(LPost now (Z.quot (c_period c) 1000000000) (c_source c) b, ok)]) ∧
     (¬ representable b → posts c (tr ++ [LFlush now ok]) = posts c tr)).
Proof.
  cbn. destruct (run_ok c tr) as [Hc Ht]. unfold posts. rewrite lib_run_app. set (s := lib_run c lib0 tr) in *.
  change (lib_run c s [LFlush now ok]) with (lib_purge c s now ok). unfold lib_purge, lib_send. cbn [lb_posts].
  pose proof (cmds_nonempty c _ s Hc Ht) as Hne. split.
  - intros E. rewrite decide_True by (by apply Hne). by rewrite app_nil_r.
  - intros E. rewrite decide_False by (intros H; by apply E, Hne). exists (lib_gauges s). split; [by apply gauges_batch|].
    pose proof (marshals_rep c s _ Hc Ht) as Hr. destruct (forallb _ _).
    + split; [done|]. intros H. exfalso. by apply H, Hr.
    + split; [intros H; by apply Hr in H|]. intros _. by rewrite app_nil_r.
Qed.

(** the requests do not depend on anything before the previous flush *)
Lemma run_fresh c tr2 : ∀ s, lb_timers s = ∅ → lb_counters s = ∅ →
  lb_posts (lib_run c s tr2) = lb_posts s ++ lb_posts (lib_run c lib0 tr2).
Proof.
  intros s E1 E2. assert (G : ∀ s1 s2, lb_timers s1 = lb_timers s2 → lb_counters s1 = lb_counters s2 →
    ∃ l, lb_posts (lib_run c s1 tr2) = lb_posts s1 ++ l ∧ lb_posts (lib_run c s2 tr2) = lb_posts s2 ++ l).
  { induction tr2 as [|op tr2 IH]; intros s1 s2 Et Ec.
    - exists []. cbn. by rewrite !app_nil_r.
    - cbn. destruct op as [job e|now ok]; cbn.
      + destruct (IH (lib_process c s1 job e) (lib_process c s2 job e)) as (l&H1&H2).
        * destruct e; cbn; repeat case_match; cbn; by rewrite ?Et.
        * destruct e; cbn; repeat case_match; cbn; by rewrite ?Ec.
        * exists l. split; [etransitivity; [exact H1|]|etransitivity; [exact H2|]]; f_equal; destruct e; cbn; repeat case_match; done.
      + destruct (IH (lib_purge c s1 now ok) (lib_purge c s2 now ok) eq_refl eq_refl) as (l&H1&H2). cbn in H1, H2.
        exists (lib_send c s1 now ok ++ l). split; [etransitivity; [exact H1|]; by rewrite <-app_assoc|]. etransitivity; [exact H2|]. rewrite <-app_assoc. f_equal. f_equal.
        unfold lib_send, lib_gauges. by rewrite Et, Ec. }
  destruct (G s lib0 E1 E2) as (l&->&->). done.
Qed.
Lemma thm_isolated c tr1 now ok tr2 :
  posts c (tr1 ++ LFlush now ok :: tr2) = posts c (tr1 ++ [LFlush now ok]) ++ posts c tr2.
Proof.
  unfold posts. change (LFlush now ok :: tr2) with ([LFlush now ok] ++ tr2). rewrite app_assoc, lib_run_app.
  apply run_fresh; rewrite lib_run_app; done.
Qed.
Lemma thm_outcome_irrelevant c tr1 now ok1 ok2 tr2 :
  ∃ l1 l2 l3, posts c (tr1 ++ LFlush now ok1 :: tr2) = l1 ++ l2 ++ l3 ∧
    posts c (tr1 ++ LFlush now ok2 :: tr2) = l1 ++ map (λ p, (p.1, ok2)) l2 ++ l3 ∧ (length l2 ≤ 1)%nat ∧ l1 = posts c tr1.
Proof.
  rewrite (thm_isolated c tr1 now ok1 tr2), (thm_isolated c tr1 now ok2 tr2). unfold posts. rewrite !lib_run_app. cbn. unfold lib_send.
  exists (posts c tr1). unfold posts. case_decide; [|case_match].
  - exists [], (lb_posts (lib_run c lib0 tr2)). cbn. rewrite app_nil_r. split; [done|]. split; [done|]. split; [lia|done].
  - eexists [_], (lb_posts (lib_run c lib0 tr2)). rewrite <-!app_assoc. split; [done|]. split; [done|]. split; [cbn; lia|done].
  - exists [], (lb_posts (lib_run c lib0 tr2)). cbn. rewrite app_nil_r. split; [done|]. split; [done|]. split; [lia|done].
Qed.
