(** * Proofs about healthd's aggregation state, part 1: runs, stored data *)
From Verif Require Import SHealthd.

Lemma hrun_cons s op tr r : hrun s (op :: tr) (Ok r) ↔ ∃ s', hop_ok s op ∧ hstep s op = Ok s' ∧ hrun s' tr (Ok r).
Proof.
  split.
  - intros H. inversion H; subst. eauto.
  - intros (s' & ? & ? & ?). by econstructor.
Qed.
Lemma hrun_app tr1 : ∀ s tr2 r, hrun s (tr1 ++ tr2) (Ok r) ↔ ∃ m, hrun s tr1 (Ok m) ∧ hrun m tr2 (Ok r).
Proof.
  induction tr1 as [|op tr1 IH]; intros s tr2 r; cbn [app].
  - split; [intros H; exists s; split; [constructor|done]|]. intros (m & H1 & H2). inversion H1; subst. done.
  - rewrite hrun_cons. split.
    + intros (s' & ? & ? & H). apply IH in H as (m & ? & ?). exists m. split; [|done]. apply hrun_cons. eauto.
    + intros (m & H1 & H2). apply hrun_cons in H1 as (s' & ? & ? & ?). exists s'. repeat split; try done. apply IH. eauto.
Qed.
Lemma hrun_one s op r : hrun s [op] (Ok r) ↔ hop_ok s op ∧ hstep s op = Ok r.
Proof.
  rewrite hrun_cons. split.
  - intros (s' & ? & ? & H). inversion H; subst. done.
  - intros [? ?]. exists r. repeat split; try done. constructor.
Qed.
Lemma hrun_snoc s tr op r : hrun s (tr ++ [op]) (Ok r) ↔ ∃ m, hrun s tr (Ok m) ∧ hop_ok m op ∧ hstep m op = Ok r.
Proof. rewrite hrun_app. setoid_rewrite hrun_one. done. Qed.

Lemma resp_good_usable r : resp_good r = true ↔ usable r.
Proof.
  unfold resp_good, usable. rewrite andb_true_iff, Z.eqb_eq. destruct (r_err r); intuition congruence.
Qed.

Lemma conf_snoc_other tr op : good_of op = None → conf_dur (tr ++ [op]) = conf_dur tr.
Proof.
  intros H. unfold conf_dur. rewrite omap_app. cbn. rewrite H. cbn. by rewrite app_nil_r.
Qed.
Lemma conf_snoc_good tr r t1 t2 : usable r →
  conf_dur (tr ++ [HResp r t1 t2]) = match conf_dur tr with Some d => Some d | None => Some (r_dur r) end.
Proof.
  intros H. unfold conf_dur. rewrite omap_app. cbn. rewrite decide_True by done.
  destruct (omap good_of tr); done.
Qed.
Lemma conf_snoc_bad tr r t1 t2 : ¬ usable r → conf_dur (tr ++ [HResp r t1 t2]) = conf_dur tr.
Proof. intros H. apply conf_snoc_other. cbn. by rewrite decide_False. Qed.
Lemma conf_app_some tr1 tr2 d : conf_dur tr1 = Some d → conf_dur (tr1 ++ tr2) = Some d.
Proof.
  unfold conf_dur. rewrite omap_app. destruct (omap good_of tr1); cbn; done.
Qed.

(** ** The configuration *)
Definition conf_inv (tr : list hop) (s : hd) : Prop :=
  match conf_dur tr with
  | None => hd_dur s = 0 ∧ hd_max s = 0 ∧ hd_host s = ∅ ∧ hd_need s = ∅ ∧ hd_pub s = []
  | Some d => d ≠ 0 ∧ hd_dur s = d ∧ hd_max s = Z.quot hd_retain d
  end.

(** what consuming a response does, by cases *)
Lemma consume_cases tr s r t1 t2 s' : conf_inv tr s → consume s r t1 t2 = Ok s' →
  conf_inv (tr ++ [HResp r t1 t2]) s' ∧ hd_pub s' = hd_pub s ∧
  hd_status s' = match hd_status s !! r_hp r with
                 | Some hs => <[r_hp r := update_status hs r t1 t2]> (hd_status s)
                 | None => hd_status s end ∧
  ((counted tr r ∧ consume_aggs (r_inst r) (r_hp r) (r_aggs r) (hd_host s) (hd_need s) = Ok (hd_host s', hd_need s')) ∨
   (¬ counted tr r ∧ hd_host s' = hd_host s ∧ hd_need s' = hd_need s)).
Proof.
  intros Hc H. unfold consume in H. destruct (resp_good r) eqn:Eg.
  - apply resp_good_usable in Eg. unfold conf_inv in *. rewrite conf_snoc_good by done. unfold counted.
    destruct (conf_dur tr) as [d|].
    + destruct Hc as (Hd & Hdd & Hm). rewrite Hdd in H.
      destruct (d =? 0) eqn:E0; [apply Z.eqb_eq in E0; done|].
      destruct (d =? r_dur r) eqn:E1.
      * apply Z.eqb_eq in E1. destruct consume_aggs as [[h n]|w] eqn:Ea; cbn in H; [|done].
        injection H as <-. cbn. split; [done|]. split; [done|]. split; [done|]. left. done.
      * apply Z.eqb_neq in E1. injection H as <-. cbn. split; [done|]. split; [done|]. split; [done|]. right.
        split; [|done]. intros [_ ?]. done.
    + destruct Hc as (Hd & Hm & Hh & Hn & Hp). rewrite Hd in H. cbn in H.
      destruct (r_dur r =? 0) eqn:E1; [done|]. apply Z.eqb_neq in E1.
      destruct consume_aggs as [[h n]|w] eqn:Ea; cbn in H; [|done].
      injection H as <-. cbn. split; [done|]. split; [done|]. split; [done|]. left. done.
  - assert (¬ usable r) as Hb. { rewrite <- resp_good_usable. rewrite Eg. done. }
    injection H as <-. unfold conf_inv in *. rewrite conf_snoc_bad by done. cbn.
    split; [done|]. split; [done|]. split; [done|]. right. split; [|done]. intros [? _]. done.
Qed.

Lemma truncate_ok max l l' : truncate_pub max l = Ok l' →
  ∃ n, l' = drop n l ∧ (0 ≤ max → Z.of_nat (length l') ≤ max) ∧ (Z.of_nat (length l) ≤ max → l' = l) ∧
    (max < Z.of_nat (length l) → Z.of_nat n = Z.of_nat (length l) - max ∧ 0 ≤ max).
Proof.
  unfold truncate_pub. intros H. destruct (max <? Z.of_nat (length l)) eqn:E1.
  - apply Z.ltb_lt in E1. destruct (_ <? _) eqn:E2; [done|]. apply Z.ltb_ge in E2.
    injection H as <-. exists (Z.to_nat (Z.of_nat (length l) - max)). split; [done|].
    rewrite drop_length. split; [lia|]. split; [lia|]. lia.
  - apply Z.ltb_ge in E1. injection H as <-. exists 0%nat. split; [done|]. split; [lia|]. split; [done|]. lia.
Qed.

Lemma recalc_nil s o s' : hd_need s = ∅ → rorder_ok s o → recalc s o = Ok s' → s' = HD (hd_dur s) (hd_max s) (hd_pub s) (hd_host s) ∅ (hd_status s).
Proof.
  intros Hn (Hk & _ & _) H. unfold recalc in H. rewrite Hn, elements_empty in Hk.
  symmetry in Hk. apply Permutation_nil in Hk. rewrite Hk in H. cbn in H. by injection H as <-.
Qed.

Lemma conf_step tr s op s' : conf_inv tr s → hop_ok s op → hstep s op = Ok s' → conf_inv (tr ++ [op]) s'.
Proof.
  intros Hc Ho H. destruct op as [r t1 t2|now|o]; cbn in H.
  - by apply (consume_cases tr s) in H as (? & _).
  - unfold conf_inv. rewrite conf_snoc_other by done. unfold conf_inv in Hc. unfold purge in H.
    destruct truncate_pub as [pub|w] eqn:Et; cbn in H; [|done]. injection H as <-. cbn.
    destruct (conf_dur tr); [done|]. destruct Hc as (-> & Hm & Hh & -> & Hp).
    rewrite Hp, Hm in Et. cbn in Et. injection Et as <-. rewrite Hh, map_filter_empty. done.
  - unfold conf_inv. rewrite conf_snoc_other by done. unfold conf_inv in Hc. cbn in Ho.
    destruct (conf_dur tr).
    + unfold recalc in H. destruct recalc_loop; cbn in H; [|done]. injection H as <-. done.
    + destruct Hc as (H1 & H2 & H3 & H4 & H5). apply recalc_nil in H as ->; [|done..]. done.
Qed.
Lemma conf_reach hosts tr s : hrun (hd_init hosts) tr (Ok s) → conf_inv tr s.
Proof.
  revert s. induction tr as [|op tr IH] using rev_ind; intros s H.
  - inversion H; subst. done.
  - apply hrun_snoc in H as (m & H1 & H2 & H3). eapply conf_step; eauto.
Qed.

(** ** The loop over the aggregations of one response *)
Definition rl (inst hp : string) (l : list (option dagg)) (key : hkey) : list dagg :=
  omap (λ x : option dagg, match x with
             | Some d => if decide ((d_time d, inst, hp) = key) then Some d else None
             | None => None
             end) l.
Lemma reports_at_rl r key : reports_at r key = rl (r_inst r) (r_hp r) (r_aggs r) key.
Proof. done. Qed.

Section aggs.
  Context (inst hp : string).

  Lemma ca_step d l host need x : consume_aggs inst hp (Some d :: l) host need = Ok x →
    ∃ host1 need1, consume_aggs inst hp l host1 need1 = Ok x ∧
      ((∃ old, host !! (d_time d, inst, hp) = Some old ∧ ia_serial (d_ia old) = ia_serial (d_ia d) ∧ host1 = host ∧ need1 = need) ∨
       ((∀ old, host !! (d_time d, inst, hp) = Some old → ia_serial (d_ia old) ≠ ia_serial (d_ia d)) ∧
        host1 = <[(d_time d, inst, hp) := d]> host ∧ need1 = {[d_time d]} ∪ need)).
  Proof.
    cbn [consume_aggs]. destruct (host !! (d_time d, inst, hp)) as [old|] eqn:E.
    - destruct (_ =? _) eqn:Es; intros H.
      + apply Z.eqb_eq in Es. exists host, need. split; [done|]. left. eauto.
      + apply Z.eqb_neq in Es. eexists _, _. split; [exact H|]. right. split; [|done]. intros o [= <-]. done.
    - intros H. eexists _, _. split; [exact H|]. right. done.
  Qed.

  Lemma rl_cons_eq d l key : (d_time d, inst, hp) = key → rl inst hp (Some d :: l) key = d :: rl inst hp l key.
  Proof. intros H. unfold rl. cbn. rewrite decide_True by done. done. Qed.
  Lemma rl_cons_ne d l key : (d_time d, inst, hp) ≠ key → rl inst hp (Some d :: l) key = rl inst hp l key.
  Proof. intros H. unfold rl. cbn. rewrite decide_False by done. done. Qed.

  (** with honest serial numbers the last report is what is stored *)
  Lemma ca_honest l : ∀ host need host' need' key,
    consume_aggs inst hp l host need = Ok (host', need') →
    (∀ d1 d2, d1 ∈ option_list (host !! key) ++ rl inst hp l key → d2 ∈ option_list (host !! key) ++ rl inst hp l key →
       ia_serial (d_ia d1) = ia_serial (d_ia d2) → d1 = d2) →
    host' !! key = match last (rl inst hp l key) with Some d => Some d | None => host !! key end.
  Proof.
    induction l as [|[d|] l IH]; intros host need host' need' key H Hh; [|apply ca_step in H as (h1 & n1 & H & Hcase)|done].
    - cbn in H. injection H as <- <-. done.
    - destruct (decide ((d_time d, inst, hp) = key)) as [Hk|Hk].
      + rewrite rl_cons_eq in Hh |- * by done.
        assert (h1 !! key = Some d) as E1.
        { destruct Hcase as [(old & Ho & Hs & -> & ->)|(Ho & -> & ->)].
          - rewrite Hk in Ho. rewrite Ho. f_equal. apply Hh; [rewrite Ho; set_solver|set_solver|done].
          - rewrite Hk. apply lookup_insert. }
        rewrite (IH h1 n1 host' need' key H).
        2:{ rewrite E1. cbn. intros d1 d2 Hd1 Hd2. apply Hh; set_solver. }
        rewrite E1. rewrite last_cons. destruct (last (rl inst hp l key)); done.
      + rewrite rl_cons_ne in Hh |- * by done.
        assert (h1 !! key = host !! key) as E1.
        { destruct Hcase as [(old & Ho & Hs & -> & ->)|(Ho & -> & ->)]; [done|]. by rewrite lookup_insert_ne. }
        rewrite (IH h1 n1 host' need' key H); rewrite E1; done.
  Qed.

  Lemma ca_mem l : ∀ host need host' need' key d,
    consume_aggs inst hp l host need = Ok (host', need') → host' !! key = Some d →
    host !! key = Some d ∨ d ∈ rl inst hp l key.
  Proof.
    induction l as [|[x|] l IH]; intros host need host' need' key d H Hd; [|apply ca_step in H as (h1 & n1 & H & Hcase)|done].
    - cbn in H. injection H as <- <-. auto.
    - destruct (IH _ _ _ _ _ _ H Hd) as [Hx|Hx].
      + destruct Hcase as [(old & Ho & Hs & -> & ->)|(Ho & -> & ->)]; [auto|].
        destruct (decide ((d_time x, inst, hp) = key)) as [Hk|Hk].
        * rewrite Hk, lookup_insert in Hx. injection Hx as ->. right. rewrite rl_cons_eq by done. left.
        * rewrite lookup_insert_ne in Hx by done. auto.
      + right. destruct (decide ((d_time x, inst, hp) = key)) as [Hk|Hk].
        * rewrite rl_cons_eq by done. by right.
        * by rewrite rl_cons_ne.
  Qed.

  Lemma ca_keep l : ∀ host need host' need' key,
    consume_aggs inst hp l host need = Ok (host', need') → is_Some (host !! key) → is_Some (host' !! key).
  Proof.
    induction l as [|[x|] l IH]; intros host need host' need' key H Hd; [|apply ca_step in H as (h1 & n1 & H & Hcase)|done].
    - cbn in H. by injection H as <- <-.
    - eapply IH; [exact H|]. destruct Hcase as [(old & Ho & Hs & -> & ->)|(Ho & -> & ->)]; [done|].
      apply lookup_insert_is_Some'. auto.
  Qed.

  Lemma ca_need_mono l : ∀ host need host' need',
    consume_aggs inst hp l host need = Ok (host', need') → need ⊆ need'.
  Proof.
    induction l as [|[x|] l IH]; intros host need host' need' H; [|apply ca_step in H as (h1 & n1 & H & Hcase)|done].
    - cbn in H. by injection H as <- <-.
    - apply IH in H. destruct Hcase as [(old & Ho & Hs & -> & ->)|(Ho & -> & ->)]; set_solver.
  Qed.
  Lemma ca_need_from l : ∀ host need host' need' t,
    consume_aggs inst hp l host need = Ok (host', need') → t ∈ need' →
    t ∈ need ∨ ∃ d, Some d ∈ l ∧ d_time d = t.
  Proof.
    induction l as [|[x|] l IH]; intros host need host' need' t H Ht; [|apply ca_step in H as (h1 & n1 & H & Hcase)|done].
    - cbn in H. injection H as <- <-. auto.
    - destruct (IH _ _ _ _ _ H Ht) as [Hx|(d & ? & ?)].
      + destruct Hcase as [(old & Ho & Hs & -> & ->)|(Ho & -> & ->)]; [auto|].
        apply elem_of_union in Hx as [Hx|Hx]; [|auto]. apply elem_of_singleton in Hx. right. exists x. split; [left|done].
      + right. exists d. split; [by right|done].
  Qed.
  (** whatever changes is pending *)
  Lemma ca_changed l : ∀ host need host' need' key,
    consume_aggs inst hp l host need = Ok (host', need') → host' !! key = host !! key ∨ key_time key ∈ need'.
  Proof.
    induction l as [|[x|] l IH]; intros host need host' need' key H; [|apply ca_step in H as (h1 & n1 & H & Hcase)|done].
    - cbn in H. injection H as <- <-. auto.
    - destruct Hcase as [(old & Ho & Hs & -> & ->)|(Ho & -> & ->)].
      + eapply IH; eauto.
      + destruct (decide ((d_time x, inst, hp) = key)) as [Hk|Hk].
        * right. apply (ca_need_mono _ _ _ _ _ H). rewrite <- Hk. cbn. set_solver.
        * destruct (IH _ _ _ _ key H) as [E|E]; [|auto]. left. rewrite E. by rewrite lookup_insert_ne.
  Qed.
  Lemma ca_total l : ∀ host need, None ∉ l → ∃ x, consume_aggs inst hp l host need = Ok x.
  Proof.
    induction l as [|[x|] l IH]; intros host need Hn; [|cbn|].
    - eexists. done.
    - assert (None ∉ l) by set_solver. destruct (host !! _) as [old|]; [destruct (_ =? _)|]; by apply IH.
    - exfalso. apply Hn. left.
  Qed.
  Lemma ca_other l : ∀ host need host' need' key,
    consume_aggs inst hp l host need = Ok (host', need') → rl inst hp l key = [] → host' !! key = host !! key.
  Proof.
    intros host need host' need' key H Hr.
    rewrite (ca_honest l host need host' need' key H).
    - by rewrite Hr.
    - rewrite Hr, app_nil_r. intros d1 d2 H1 H2 _. destruct (host !! key); cbn in *; set_solver.
  Qed.
End aggs.

(** ** Stored data is reported data *)
Lemma reported_snoc tr op key d : reported (tr ++ [op]) key d ↔
  reported tr key d ∨ ∃ r t1 t2, op = HResp r t1 t2 ∧ usable r ∧ d ∈ reports_at r key.
Proof.
  unfold reported. setoid_rewrite elem_of_app. split.
  - intros (r & t1 & t2 & [H|H] & Hd); [left; eauto 10|]. apply elem_of_list_singleton in H. right. eauto 10.
  - intros [(r & t1 & t2 & H & Hd)|(r & t1 & t2 & -> & Hd)]; [eauto 10|]. exists r, t1, t2. split; [right; left|done].
Qed.

Lemma purge_host s now s' : purge s now = Ok s' →
  hd_host s' = filter (λ kd : hkey * dagg, ¬ (w64 (hd_dur s * 5) < since (now kd.1) (key_time kd.1).1)) (hd_host s) ∧
  hd_need s' = hd_need s ∧ hd_status s' = hd_status s ∧ hd_dur s' = hd_dur s ∧ hd_max s' = hd_max s ∧
  truncate_pub (hd_max s) (hd_pub s) = Ok (hd_pub s').
Proof. unfold purge. destruct truncate_pub eqn:E; cbn; [|done]. intros [= <-]. cbn. done. Qed.
Lemma recalc_host s o s' : recalc s o = Ok s' →
  hd_host s' = hd_host s ∧ hd_need s' = ∅ ∧ hd_status s' = hd_status s ∧ hd_dur s' = hd_dur s ∧ hd_max s' = hd_max s ∧
  recalc_loop o (hd_max s) (ro_keys o) (hd_pub s) = Ok (hd_pub s').
Proof. unfold recalc. destruct recalc_loop eqn:E; cbn; [|done]. intros [= <-]. cbn. done. Qed.

Lemma stored_reported hosts tr s key d : hrun (hd_init hosts) tr (Ok s) → hd_host s !! key = Some d → reported tr key d.
Proof.
  revert s key d. induction tr as [|op tr IH] using rev_ind; intros s key d H Hd.
  - inversion H; subst. done.
  - apply hrun_snoc in H as (m & H1 & H2 & H3). apply reported_snoc.
    destruct op as [r t1 t2|now|o]; cbn in H3.
    + apply (consume_cases tr) in H3 as (_ & _ & _ & [[[Hu _] Ha]|(_ & Hh & _)]); [| |by eapply conf_reach].
      * destruct (ca_mem _ _ _ _ _ _ _ _ _ Ha Hd) as [Hx|Hx]; [left; eauto|]. right. eauto 10.
      * rewrite Hh in Hd. left. eauto.
    + apply purge_host in H3 as (Hh & _). rewrite Hh in Hd. apply map_filter_lookup_Some in Hd as [Hd _]. left. eauto.
    + apply recalc_host in H3 as (Hh & _). rewrite Hh in Hd. left. eauto.
Qed.

Lemma honest_prefix tr1 tr2 : serials_honest (tr1 ++ tr2) → serials_honest tr1.
Proof.
  intros H key d1 d2 (r & t1 & t2 & Hr & Hd) (r' & t1' & t2' & Hr' & Hd'). apply (H key).
  - exists r, t1, t2. rewrite elem_of_app. auto.
  - exists r', t1', t2'. rewrite elem_of_app. auto.
Qed.

(** is_latest, one operation at a time *)
Lemma latest_snoc tr op key d : is_latest (tr ++ [op]) key d ↔
  (is_latest tr key d ∧ ¬ touches tr key op) ∨
  (∃ r t1 t2, op = HResp r t1 t2 ∧ counted tr r ∧ last (reports_at r key) = Some d).
Proof.
  split.
  - intros (tr1 & r & t1 & t2 & tr2 & E & Hc & Hl & Hn).
    destruct tr2 as [|op2 tr2 _] using rev_ind.
    + apply app_inj_tail in E as [-> ->]. right. eauto 10.
    + rewrite app_comm_cons, app_assoc in E. apply app_inj_tail in E as [-> ->]. left. split.
      * exists tr1, r, t1, t2, tr2. split; [done|]. split; [done|]. split; [done|].
        intros tr3 op3 tr4 E. apply (Hn tr3 op3 (tr4 ++ [op2])). rewrite E, <- app_assoc. done.
      * apply (Hn tr2 op2 []). done.
  - intros [[(tr1 & r & t1 & t2 & tr2 & -> & Hc & Hl & Hn) Ht]|(r & t1 & t2 & -> & Hc & Hl)].
    + exists tr1, r, t1, t2, (tr2 ++ [op]). split; [by rewrite <- app_assoc|]. split; [done|]. split; [done|].
      intros tr3 op3 tr4 E. destruct tr4 as [|op4 tr4 _] using rev_ind.
      * apply app_inj_tail in E as [-> ->]. done.
      * rewrite app_comm_cons, app_assoc in E. apply app_inj_tail in E as [E _]. by eapply Hn.
    + exists tr, r, t1, t2, []. split; [done|]. split; [done|]. split; [done|]. intros tr3 op3 tr4 E. by destruct tr3.
Qed.

Lemma last_nil_none {A} (l : list A) : last l = None ↔ l = [].
Proof. apply last_None. Qed.

(** ** With honest serial numbers, what is stored is what was reported last *)
Lemma stored_latest hosts tr s key d : hrun (hd_init hosts) tr (Ok s) → serials_honest tr →
  hd_host s !! key = Some d ↔ is_latest tr key d.
Proof.
  revert s key d. induction tr as [|op tr IH] using rev_ind; intros s key d H Hh.
  - inversion H; subst. cbn. split; [done|]. intros (tr1 & r & t1 & t2 & tr2 & E & _). by destruct tr1.
  - rewrite latest_snoc. apply hrun_snoc in H as (m & H1 & H2 & H3).
    assert (Hh' := honest_prefix _ _ Hh). assert (Hc := conf_reach _ _ _ H1).
    destruct op as [r t1 t2|now|o]; cbn in H3.
    + apply (consume_cases tr) in H3 as (_ & _ & _ & [[Hct Ha]|(Hct & Hho & _)]); [| |done].
      * rewrite (ca_honest _ _ _ _ _ _ _ key Ha).
        2:{ intros d1 d2 Hd1 Hd2. assert (usable r) by apply Hct. apply (Hh key).
            - apply elem_of_app in Hd1 as [Hd1|Hd1]; apply reported_snoc; [left|right; eauto 10].
              apply elem_of_list_In in Hd1. destruct (hd_host m !! key) eqn:E; [|done]. cbn in Hd1. destruct Hd1 as [->|[]].
              eapply stored_reported; eauto.
            - apply elem_of_app in Hd2 as [Hd2|Hd2]; apply reported_snoc; [left|right; eauto 10].
              apply elem_of_list_In in Hd2. destruct (hd_host m !! key) eqn:E; [|done]. cbn in Hd2. destruct Hd2 as [->|[]].
              eapply stored_reported; eauto. }
        rewrite <- reports_at_rl. destruct (last (reports_at r key)) as [d'|] eqn:El.
        -- split.
           ++ intros [= ->]. right. eauto 10.
           ++ intros [[_ Ht]|(r' & t1' & t2' & [= <- <- <-] & _ & Hl)].
              ** exfalso. apply Ht. cbn. split; [done|]. intros E. rewrite E in El. done.
              ** congruence.
        -- rewrite (IH m key d H1 Hh'). split.
           ++ intros Hl. left. split; [done|]. cbn. intros [_ Hx]. apply Hx. by apply last_nil_none.
           ++ intros [[Hl _]|(r' & t1' & t2' & [= <- <- <-] & _ & Hl)]; [done|]. congruence.
      * rewrite Hho, (IH m key d H1 Hh'). split.
        -- intros Hl. left. split; [done|]. cbn. intros [? _]. done.
        -- intros [[Hl _]|(r' & t1' & t2' & [= <- <- <-] & ? & Hl)]; done.
    + apply purge_host in H3 as (Hho & _). rewrite Hho, map_filter_lookup_Some, (IH m key d H1 Hh').
      assert (hd_dur m = default 0 (conf_dur tr)) as Hd.
      { unfold conf_inv in Hc. destruct (conf_dur tr); cbn; [by destruct Hc as (_ & ? & _)|by destruct Hc as (? & _)]. }
      rewrite Hd. split.
      * intros [Hl Hx]. left. split; [done|]. exact Hx.
      * intros [[Hl Hx]|(r' & t1' & t2' & ? & _)]; [|done]. split; [done|]. exact Hx.
    + apply recalc_host in H3 as (Hho & _). rewrite Hho, (IH m key d H1 Hh'). split.
      * intros Hl. left. split; [done|]. cbn. auto.
      * intros [[Hl _]|(r' & t1' & t2' & ? & _)]; done.
Qed.

(** data that changed since the last recalculation is pending *)
Lemma changed_pending hosts tr2 : ∀ tr1 s key d, hrun (hd_init hosts) (tr1 ++ tr2) (Ok s) → serials_honest (tr1 ++ tr2) →
  Forall (λ op, ¬ is_recalc op) tr2 → is_latest (tr1 ++ tr2) key d → ¬ is_latest tr1 key d →
  key_time key ∈ hd_need s.
Proof.
  intros tr1 s key d H Hh Hnr Hl Hnl.
  apply hrun_app in H as (m & H1 & H2).
  assert (hd_host m !! key ≠ Some d) as Hm.
  { rewrite (stored_latest hosts tr1 m key d H1); [done|]. by eapply honest_prefix. }
  assert (hd_host s !! key = Some d) as Hs.
  { rewrite (stored_latest hosts (tr1 ++ tr2) s key d); [done| |done]. apply hrun_app. eauto. }
  clear Hl Hnl Hh.
  cut (hd_host s !! key = Some d → hd_host m !! key = Some d ∨ key_time key ∈ hd_need s).
  { intros Hx. by destruct (Hx Hs). }
  clear Hs Hm. revert s H2. induction tr2 as [|op tr2 IH] using rev_ind; intros s H2 Hs.
  - inversion H2; subst. auto.
  - apply Forall_app in Hnr as [Hnr Hop]. apply hrun_snoc in H2 as (m2 & H2 & H3 & H4).
    assert (conf_inv (tr1 ++ tr2) m2) as Hc. { apply (conf_reach hosts). apply hrun_app. eauto. }
    destruct op as [r t1 t2|now|o]; cbn in H4; [| |by inversion Hop].
    + apply (consume_cases (tr1 ++ tr2)) in H4 as (_ & _ & _ & [[Hct Ha]|(Hct & Hho & Hn)]); [| |done].
      * destruct (ca_changed _ _ _ _ _ _ _ key Ha) as [E|E]; [|auto].
        destruct (IH Hnr m2 H2) as [|Hx]; [congruence|auto|]. right. by apply (ca_need_mono _ _ _ _ _ _ _ Ha).
      * rewrite Hn. apply (IH Hnr m2 H2). congruence.
    + apply purge_host in H4 as (Hho & Hn & _). rewrite Hn. apply (IH Hnr m2 H2).
      rewrite Hho in Hs. by apply map_filter_lookup_Some in Hs as [? _].
Qed.
(** and pending intervals have been reported since *)
Lemma pending_reported hosts tr2 : ∀ tr1 o s t, hrun (hd_init hosts) (tr1 ++ HRecalc o :: tr2) (Ok s) →
  t ∈ hd_need s → ∃ key d, reported tr2 key d ∧ key_time key = t.
Proof.
  induction tr2 as [|op tr2 IH] using rev_ind; intros tr1 o s t H Ht.
  - apply hrun_snoc in H as (m & _ & _ & H). cbn in H. apply recalc_host in H as (_ & Hn & _). rewrite Hn in Ht. set_solver.
  - rewrite app_comm_cons, app_assoc in H. apply hrun_snoc in H as (m & H1 & _ & H3).
    assert (t ∈ hd_need m → ∃ key d, reported (tr2 ++ [op]) key d ∧ key_time key = t) as Hold.
    { intros Hm. destruct (IH _ _ _ _ H1 Hm) as (key & d & ? & ?). exists key, d. split; [|done]. apply reported_snoc. auto. }
    destruct op as [r t1 t2|now|o']; cbn in H3.
    + apply (consume_cases (tr1 ++ HRecalc o :: tr2)) in H3 as (_ & _ & _ & [[Hct Ha]|(Hct & Hho & Hn)]);
        [| |by eapply conf_reach].
      * destruct (ca_need_from _ _ _ _ _ _ _ _ Ha Ht) as [|(d & Hd & <-)]; [auto|].
        exists (d_time d, r_inst r, r_hp r), d. split; [|done]. apply reported_snoc. right. exists r, t1, t2. split; [done|]. split; [apply Hct|].
        rewrite reports_at_rl. apply elem_of_list_omap. exists (Some d). split; [done|]. by rewrite decide_True.
      * rewrite Hn in Ht. auto.
    + apply purge_host in H3 as (_ & Hn & _). rewrite Hn in Ht. auto.
    + apply recalc_host in H3 as (_ & Hn & _). rewrite Hn in Ht. set_solver.
Qed.
