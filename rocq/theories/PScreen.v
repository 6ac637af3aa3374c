(** * Proofs: from the emissions of processes to healthtop's screen *)
From Verif Require Import PApi PTop PWire2 PTopTable PSystem PSystem2 SScreen.

Section screen.
  Context (ff : f64 → string) (d : Z) (P : nat → proc) (zone : N) (TR : list sev).
  Context (Hff : float_codec ff) (H64 : in_int64 d) (Hd : 0 < d) (HP : procs_ok d P TR).
  Context (hosts : list string) (ops : list hop) (o : rorder) (st : MHealthd.hd).
  Context (HS : sys ff d P zone TR (ops ++ [HRecalc o])) (HR : hrun (hd_init hosts) (ops ++ [HRecalc o]) (Ok st)).
  Context (Hkept : ∀ p, p ∈ hd_pub st → kept d (ia_start (pa_ia p)) TR).
  Context (srt : sorting_fn ajob) (order : list (string * jobagg)).
  Context (Hsrt : correct_sort srt) (Hord : ∀ x, handler_overall (map pa_ia (hd_pub st)) = Some x → order ≡ₚ map_to_list (ia_jobs x)).

  Definition answers_heard (L : list (Z * nat * nat)) : Prop :=
    NoDup L ∧ ∀ s i k, (s, i, k) ∈ L ↔ (∃ p, p ∈ hd_pub st ∧ ia_start (pa_ia p) = s) ∧ heard d P TR i s k.

  Lemma occurring_good L job : occurring d TR L job → good_name job.
  Proof using HP.
    intros (s&i&k&_&Hj). destruct (of_job job _) as [|c l] eqn:E; [done|]. clear Hj.
    assert (Hc : c ∈ of_job job (cmds_in d s (take k (hist i TR)))) by (rewrite E; left). clear E.
    apply elem_of_list_filter in Hc as [<- Hc]. unfold cmds_in in Hc. apply elem_of_list_omap in Hc as ([t op]&Hin&Ho). cbn in Ho.
    assert (Hin' : (t, op) ∈ hist i TR). { rewrite <-(take_drop k (hist i TR)). apply elem_of_app. by left. }
    destruct (po_hist d P TR HP i _ _ Hin') as [Hok _]. destruct op as [c'| |]; try done. case_bool_decide; [|done]. injection Ho as ->.
    specialize (Hok _ eq_refl). destruct c; cbn in *; tauto.
  Qed.
  (** what all the published intervals together say *)
  Lemma overall_detail ov : MApi.combine (map pa_ia (hd_pub st)) = Some ov →
    ∃ L, answers_heard L ∧ (∀ j, is_Some (ia_jobs ov !! j) ↔ occurring d TR L j) ∧
      ∀ j ja c, ia_jobs ov !! j = Some ja → jctr_val c ja = emitted_for d TR L j c.
  Proof using All.
    intros Ho. destruct (page_detail ff d P zone TR Hff H64 Hd HP hosts ops o st HS HR Hkept (hd_pub st) (λ p H, H) (pub_starts ff d P zone TR Hff H64 Hd HP hosts ops o st HS HR Hkept)) as (L & L1 & L2 & L3 & L4).
    exists L. split; [done|].
    assert (∀ x, x ∈ map pa_ia (hd_pub st) → int64_ia x) as Hint.
    { intros x Hx. apply elem_of_list_fmap in Hx as (p & -> & Hp).
      eapply (system_int64 ff d P zone TR Hff H64 Hd HP _ _ _ _ _ _ HS HR (Hkept p Hp) Hp). by eapply (system_zone ff d P zone TR Hff H64 Hd HP). }
    destruct (map pa_ia (hd_pub st)) as [|i aggs] eqn:E; [done|].
    destruct (thm_overall_sums i aggs Hint) as (ov' & O1 & _ & O3 & O4). unfold handler_overall in O1. rewrite Ho in O1. injection O1 as <-.
    split; [intros j; by rewrite O4, L4|].
    intros j ja c Hj. unfold emitted_for. rewrite <-L3, <-O3. cbn [ctr_val]. unfold mget. by rewrite Hj.
  Qed.

  Lemma screen_detail sort name height msg inst dur x now bold color :
    good_name inst → in_int64 dur → height < 2 ^ 63 → decorates bold → (∀ c, decorates (color c)) →
    let q := top_query sort name height in
    let page := handler_jobs srt (map pa_ia (hd_pub st)) order (query_get q "sort") (query_get q "limit") in
    (∀ r, r ∈ default [] page → legible r) →
    ∃ body js text head lines L,
      render msg (enc_api_jobs ff inst dur page) = (200, body) ∧ top_jobs_event x body now = TResponse (map Some js) now ∧
      jobs_table bold color (map Some (top_jobs js name)) = Ok text ∧ is_table text (head :: lines) ∧ map (visible false) head = job_columns ∧
      answers_heard L ∧
      ∃ jobs, Forall2 (λ job, job_line job (emitted_for d TR L job)) jobs lines ∧ NoDup jobs ∧
        (∀ job, job ∈ jobs → occurring d TR L job ∧ occurs name job) ∧
        (name ≠ "" → ∀ job, occurring d TR L job → occurs name job → job ∈ jobs) ∧
        (name = "" → ∀ all, NoDup all → (∀ job, job ∈ all ↔ occurring d TR L job) →
          Z.of_nat (length jobs) = Z.min (max_rows height) (Z.of_nat (length all))).
  Proof using All.
    intros Hi Hdur Hh Hb Hc q page Hleg.
    assert (∃ L, answers_heard L ∧
      (∀ r, r ∈ default [] page → occurring d TR L (aj_name r) ∧
        aj_count r = emitted_for d TR L (aj_name r) KCount ∧ aj_success r = emitted_for d TR L (aj_name r) KSuccess ∧
        aj_verror r = emitted_for d TR L (aj_name r) KVError ∧ aj_panic r = emitted_for d TR L (aj_name r) KPanic ∧
        aj_error r = emitted_for d TR L (aj_name r) KError ∧ aj_junk r = emitted_for d TR L (aj_name r) KJunk ∧
        aj_sum r = emitted_for d TR L (aj_name r) KSum) ∧
      let rows := top_jobs (default [] page) name in
      (∀ r, r ∈ rows → r ∈ default [] page ∧ occurs name (aj_name r)) ∧ NoDup (map aj_name rows) ∧
      (name ≠ "" → ∀ job, occurring d TR L job → occurs name job → job ∈ map aj_name rows) ∧
      (name = "" → ∀ all, NoDup all → (∀ job, job ∈ all ↔ occurring d TR L job) →
        Z.of_nat (length rows) = Z.min (max_rows height) (Z.of_nat (length all)))) as (L & HL & HT & R1 & R2 & R3 & R4).
    { destruct (MApi.combine (map pa_ia (hd_pub st))) as [ov|] eqn:Ho.
      - destruct (overall_detail ov Ho) as (L & HL & Hocc & Htot). exists L. split; [done|].
        destruct (thm_listed srt _ ov order sort name height Hsrt Ho (Hord _ Ho) Hh) as (js & rest & E & T1 & T2 & T3 & T4 & T5 & _).
        fold q in E. unfold page. rewrite E. change (default [] (Some js)) with js. split.
        { intros r Hr. destruct (T5 r) as (ja & Ja & A1 & A2 & A3 & A4 & A5 & A6 & A7 & _); [apply elem_of_app; by left|].
          split; [apply Hocc; by rewrite Ja|]. rewrite <-!(Htot _ _ _ Ja). done. }
        split. { intros r Hr. split; [|by apply T1]. pose proof (thm_filter js name) as K. clear -K Hr. induction K as [|y l l' H K IH|y l l' H K IH]; [done| |right; by apply IH].
          apply elem_of_cons in Hr as [-> |Hr]; [left|right; by apply IH]. }
        split; [done|]. split; [intros Hn job Hj Hoc; apply T3; [done|]; split; [by apply Hocc|done]|].
        intros Hn all Hnd Hall. rewrite T4 by done. f_equal. f_equal.
        assert (all ≡ₚ map fst (map_to_list (ia_jobs ov))) as Hperm.
        { apply NoDup_Permutation; [done|apply NoDup_fst_map_to_list|]. intros y. rewrite Hall, <-Hocc, elem_of_list_fmap. split.
          - intros [ja Ja]. exists (y, ja). split; [done|]. by apply elem_of_map_to_list.
          - intros ([z ja] & -> & Ja). exists ja. by apply elem_of_map_to_list in Ja. }
        rewrite Hperm, map_length. done.
      - assert (Ep : hd_pub st = []). { destruct (hd_pub st); [done|]. done. }
        assert (Epg : page = None). { unfold page, handler_jobs. by rewrite Ho. }
        exists []. rewrite Epg. change (default [] (@None (list ajob))) with (@nil ajob). split; [|split; [|split; [|split; [|split]]]].
        + split; [constructor|]. intros s i k. rewrite Ep. split; [by intros []%elem_of_nil|]. by intros [(p & []%elem_of_nil & _) _].
        + by intros r []%elem_of_nil.
        + intros r Hr. unfold top_jobs in Hr. case_decide; [by apply elem_of_nil in Hr|]. by apply elem_of_nil in Hr.
        + unfold top_jobs. case_decide; constructor.
        + intros _ job (s & i & k & []%elem_of_nil & _).
        + intros -> all Hnd Hall. assert (0 ≤ max_rows height) as Hm. { unfold max_rows. cbn. destruct (height - 2 <? 3) eqn:E3; [lia|apply Z.ltb_ge in E3; lia]. }
          destruct all as [|j all]; [unfold top_jobs; rewrite decide_True by done; cbn; lia|].
          exfalso. destruct (proj1 (Hall j)) as (s & i & k & []%elem_of_nil & _). left. }
    destruct (thm_jobs_page ff msg inst dur page x now Hff Hi Hdur) as (body & B1 & B2).
    { intros l El. apply Forall_forall. intros r Hr. destruct (Hleg r) as (G1 & [G2 _] & G3); [by rewrite El|].
      split; [|done]. eapply occurring_good. apply HT. by rewrite El. }
    destruct (thm_jobs_table bold color Hb Hc (top_jobs (default [] page) name)) as (text & head & lines & E1 & E2 & E3 & E4).
    { apply Forall_forall. intros r Hr. destruct (Hleg r) as (G1 & G2 & _); [by apply R1|]. done. }
    exists body, (default [] page), text, head, lines, L. do 6 (split; [done|]).
    exists (map aj_name (top_jobs (default [] page) name)). split; [|split; [done|split; [|split; [done|]]]].
    - assert (G : ∀ r, r ∈ top_jobs (default [] page) name → r ∈ default [] page) by (intros r Hr; by apply R1).
      clear -E4 HT G. induction E4 as [|r cells l lines Hrow E4 IH]; [constructor|]. cbn [map]. constructor.
      + destruct (HT r) as (_ & A1 & A2 & A3 & A4 & A5 & A6 & A7); [apply G; left|].
        destruct Hrow as (c & su & ve & pa & er & ju & av & sd & mn & mx & sm & na & ns & E & C1 & C2 & C3 & C4 & C5 & C6 & _ & _ & _ & _ & _ & _ & C7).
        exists c, su, ve, pa, er, ju, av, sd, mn, mx, sm. rewrite <-A1, <-A2, <-A3, <-A4, <-A5, <-A6, <-A7. done.
      + apply IH. intros y Hy. apply G. by right.
    - intros job Hj. apply elem_of_list_fmap in Hj as (r & -> & Hr). destruct (R1 r Hr) as [Hp Ho]. split; [by apply HT|done].
    - intros Hn all Hnd Hall. rewrite map_length. by apply R4.
  Qed.
End screen.
