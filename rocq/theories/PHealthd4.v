(** * Proofs about healthd's aggregation state, part 4: repeated polls,
      malformed responses, one zone, statuses *)
From Verif Require Import SHealthd PContent PHealthd PHealthd2 PHealthd3 PMerge PMerge2.

(** ** Repeated polls *)
(** every aggregation listed is stored with its serial number *)
Definition known (inst hp : string) (l : list (option dagg)) (host : gmap hkey dagg) : Prop :=
  ∀ d, Some d ∈ l → ∃ old, host !! (d_time d, inst, hp) = Some old ∧ ia_serial (d_ia old) = ia_serial (d_ia d).

Lemma ca_idem inst hp l : ∀ host need, None ∉ l → known inst hp l host → consume_aggs inst hp l host need = Ok (host, need).
Proof.
  induction l as [|[d|] l IH]; intros host need Hn Hk; cbn [consume_aggs].
  - done.
  - destruct (Hk d) as (old & -> & ->); [left|]. rewrite Z.eqb_refl. apply IH.
    + intros H. apply Hn. by right.
    + intros d' Hd'. apply Hk. by right.
  - exfalso. apply Hn. left.
Qed.

Lemma ca_none inst hp l host need x : consume_aggs inst hp l host need = Ok x → None ∉ l.
Proof.
  revert host need. induction l as [|[d|] l IH]; intros host need H.
  - apply not_elem_of_nil.
  - apply ca_step in H as (h1 & n1 & H & _). apply not_elem_of_cons. split; [done|eauto].
  - done.
Qed.

Lemma ca_known inst hp l : ∀ host need host' need', consume_aggs inst hp l host need = Ok (host', need') →
  NoDup (omap (fmap d_time) l) → known inst hp l host'.
Proof.
  induction l as [|[d|] l IH]; intros host need host' need' H Hn; [|apply ca_step in H as (h1 & n1 & H & Hc)|done].
  - intros d Hd. by apply elem_of_nil in Hd.
  - cbn in Hn. apply NoDup_cons in Hn as [Hd Hn]. intros x Hx. apply elem_of_cons in Hx as [[= ->]|Hx]; [|by eapply IH].
    assert (rl inst hp l (d_time d, inst, hp) = []) as E.
    { destruct (rl inst hp l (d_time d, inst, hp)) as [|y k] eqn:E; [done|]. exfalso. apply Hd.
      assert (y ∈ rl inst hp l (d_time d, inst, hp)) as Hy by (rewrite E; left).
      apply elem_of_list_omap in Hy as (z & Hz & Hy). destruct z as [z|]; [|done].
      destruct (decide _) as [Ez|]; [|done]. injection Hy as ->. injection Ez as Ez.
      apply elem_of_list_omap. exists (Some y). split; [done|]. cbn. unfold d_time in *. congruence. }
    rewrite (ca_other _ _ _ _ _ _ _ _ H E). destruct Hc as [(old & Ho & Hs & -> & ->)|(Ho & -> & ->)]; [eauto|].
    exists d. split; [apply lookup_insert|done].
Qed.

Lemma good_same r r' : same_report r r' → resp_good r' = resp_good r ∧ (usable r' ↔ usable r).
Proof. intros (_ & H1 & H2 & _). unfold resp_good, usable. rewrite H1, H2. done. Qed.

Lemma repoll_unchanged hosts tr1 r t1 t2 tr2 s r' t1' t2' s' :
  hrun (hd_init hosts) (tr1 ++ HResp r t1 t2 :: tr2) (Ok s) → hstep s (HResp r' t1' t2') = Ok s' →
  same_report r r' → listed_once r →
  (∀ op, op ∈ tr2 → ¬ resp_of (r_hp r) op) →
  (∀ tra now trb key, tr2 = tra ++ HPurge now :: trb → reports_at r key ≠ [] → ¬ expires (tr1 ++ HResp r t1 t2 :: tra) key now) →
  hd_host s' = hd_host s ∧ hd_need s' = hd_need s ∧ hd_pub s' = hd_pub s.
Proof.
  intros H Hst Hsame Honce Hno Hexp. cbn in Hst.
  assert (Hc := conf_reach _ _ _ H). destruct (consume_cases _ _ _ _ _ _ Hc Hst) as (_ & Hpub & _ & Hcase).
  assert (∀ x, same_report r r' → counted (tr1 ++ HResp r t1 t2 :: x) r' → counted tr1 r) as Hback.
  { intros x (Q1 & Q2 & Q3 & Q4 & Q5 & Q6) [Hu Hd]. unfold usable in Hu. rewrite Q2, Q3 in Hu. split; [done|].
    destruct (conf_dur tr1) as [d|] eqn:E; [|done].
    rewrite (conf_app_some _ _ _ E) in Hd. congruence. }
  destruct Hcase as [[Hct Ha]|(_ & Hh & Hn)]; [|done].
  specialize (Hback tr2 Hsame Hct).
  (* the first response was counted, so its data is known *)
  assert (known (r_inst r) (r_hp r) (r_aggs r) (hd_host s) ∧ None ∉ r_aggs r) as [Hk Hnn].
  { clear - H Hback Honce Hno Hexp. revert s H.
    induction tr2 as [|op tr2 IH] using rev_ind; intros s H.
    - apply hrun_snoc in H as (m & H1 & _ & H3). cbn in H3.
      apply (consume_cases tr1) in H3 as (_ & _ & _ & [[_ Ha]|(Hn & _)]); [|done|by eapply conf_reach].
      split; [by eapply ca_known|by eapply ca_none].
    - change (HResp r t1 t2 :: tr2 ++ [op]) with ((HResp r t1 t2 :: tr2) ++ [op]) in H. rewrite app_assoc in H.
      apply hrun_snoc in H as (m & H1 & H2 & H3).
      destruct (IH) with (s := m) as [Hk Hnn]; [| |done|].
      { intros o Ho. apply Hno. apply elem_of_app. auto. }
      { intros tra now trb key E. apply (Hexp tra now (trb ++ [op])). rewrite E, <- app_assoc. done. }
      split; [|done]. intros d Hd. destruct (Hk d Hd) as (old & Ho & Hs). exists old. split; [|done].
      destruct op as [r2 u1 u2|now|o]; cbn in H3.
      + apply (consume_cases (tr1 ++ HResp r t1 t2 :: tr2)) in H3 as (_ & _ & _ & [[_ Ha]|(_ & Hh & _)]); [| |by eapply conf_reach].
        * rewrite (ca_other _ _ _ _ _ _ _ _ Ha); [done|].
          destruct (rl _ _ _ _) as [|y k] eqn:E; [done|]. exfalso.
          assert (y ∈ y :: k) as Hy by left. rewrite <- E in Hy. apply elem_of_list_omap in Hy as (z & Hz & Hy). destruct z as [z|]; [|done].
          destruct (decide _) as [Ez|]; [|done]. injection Ez as _ _ Ez. apply (Hno (HResp r2 u1 u2)); [apply elem_of_app; right; left|]. done.
        * by rewrite Hh.
      + apply purge_host in H3 as (Hh & _). rewrite Hh. apply map_filter_lookup_Some. split; [done|]. cbn.
        assert (Hcm := conf_reach _ _ _ H1).
        intros Hx. apply (Hexp tr2 now [] (d_time d, r_inst r, r_hp r)); [done| |].
        * intros E. assert (d ∈ reports_at r (d_time d, r_inst r, r_hp r)) as Hin; [|rewrite E in Hin; by apply elem_of_nil in Hin].
          apply elem_of_list_omap. exists (Some d). split; [done|]. by rewrite decide_True.
        * unfold expires. unfold conf_inv in Hcm. destruct (conf_dur (tr1 ++ HResp r t1 t2 :: tr2)) as [x|]; cbn.
          -- destruct Hcm as (_ & <- & _). done.
          -- destruct Hcm as (E & _). rewrite E in Hx. done.
      + apply recalc_host in H3 as (Hh & _). by rewrite Hh. }
  destruct Hsame as (Q1 & Q2 & Q3 & Q4 & Q5 & Q6). rewrite Q1, Q4, Q6 in Ha.
  rewrite (ca_idem _ _ _ _ _ Hnn Hk) in Ha. by injection Ha as -> ->.
Qed.

(** ** Well-formed responses never crash the loop *)
Lemma ca_nonull inst hp l host need host' need' :
  consume_aggs inst hp l host need = Ok (host', need') →
  (∀ d, Some d ∈ l → d_null d = false) → (∀ k d, host !! k = Some d → d_null d = false) →
  ∀ k d, host' !! k = Some d → d_null d = false.
Proof.
  intros H Hl Hh k d Hd. destruct (ca_mem _ _ _ _ _ _ _ _ _ H Hd) as [|Hx]; [eauto|].
  apply elem_of_list_omap in Hx as (z & Hz & Hx). destruct z as [z|]; [|done]. destruct (decide _); [|done].
  injection Hx as ->. auto.
Qed.
Lemma truncate_total max l : 0 ≤ max → ∃ l', truncate_pub max l = Ok l'.
Proof.
  intros H. unfold truncate_pub. destruct (max <? _) eqn:E; [|eauto].
  destruct (Z.of_nat (length l) <? Z.of_nat (length l) - max) eqn:E2; [|eauto].
  apply Z.ltb_lt in E2. lia.
Qed.
Lemma recalc_loop_total o max ks : ∀ pub, 0 ≤ max → (∀ k kd, kd ∈ ro_entries o k → d_null kd.2 = false) →
  ∃ pub', recalc_loop o max ks pub = Ok pub'.
Proof.
  induction ks as [|k ks IH]; intros pub Hm Hn; cbn; [eauto|].
  unfold merge_entries. replace (existsb d_null _) with false; cbn.
  - destruct (set_aggregation _ _ _ _) eqn:E; cbn; [by apply IH|].
    unfold set_aggregation in E. destruct replace_pub; [done|].
    destruct (truncate_total max (ro_sort o (pub ++ [PAgg k.2 (merge_all k.1 (map d_ia (map snd (filter (λ kd : hkey * dagg, key_time kd.1 = k) (ro_entries o k)))))]))) as [l' E']; [done|].
    congruence.
  - symmetry. apply not_true_iff_false. intros E. apply existsb_exists in E as (d & Hd & Hdn).
    apply elem_of_list_In, elem_of_list_fmap in Hd as (kd & -> & Hkd). apply elem_of_list_filter in Hkd as [_ Hkd].
    specialize (Hn k kd Hkd). congruence.
Qed.

Lemma nonull_reach hosts tr s : hrun (hd_init hosts) tr (Ok s) → well_formed tr → ∀ k d, hd_host s !! k = Some d → d_null d = false.
Proof.
  revert s. induction tr as [|op tr IH] using rev_ind; intros s H Hw k d Hd.
  - inversion H; subst. done.
  - apply hrun_snoc in H as (m & H1 & H2 & H3).
    assert (Hm := IH m H1 (well_formed_prefix _ _ Hw)).
    destruct op as [r t1 t2|now|o]; cbn in H3.
    + apply (consume_cases tr) in H3 as (_ & _ & _ & [[Hct Ha]|(_ & Hh & _)]); [| |by eapply conf_reach].
      * refine (ca_nonull _ _ _ _ _ _ _ Ha _ Hm k d Hd). intros x Hx.
        destruct (Hw r t1 t2) as [_ Hy]; [apply elem_of_app; right; left|apply Hct|].
        destruct (Hy _ Hx) as (y & [= ->] & ?). done.
      * rewrite Hh in Hd. eauto.
    + apply purge_host in H3 as (Hh & _). rewrite Hh in Hd. apply map_filter_lookup_Some in Hd as [Hd _]. eauto.
    + apply recalc_host in H3 as (Hh & _). rewrite Hh in Hd. eauto.
Qed.

Lemma step_total hosts tr s op : hrun (hd_init hosts) tr (Ok s) → well_formed (tr ++ [op]) → hop_ok s op →
  ∃ s', hstep s op = Ok s'.
Proof.
  intros H Hw Ho. assert (Hc := conf_reach _ _ _ H).
  assert (Hmax : 0 ≤ hd_max s).
  { unfold conf_inv in Hc. destruct (conf_dur tr) as [d|] eqn:E.
    - destruct Hc as (_ & _ & ->). apply (conf_pos _ _ (well_formed_prefix _ _ Hw)) in E. apply Z.quot_pos; [done|lia].
    - destruct Hc as (_ & -> & _). done. }
  destruct op as [r t1 t2|now|o]; cbn.
  - unfold consume. destruct (resp_good r) eqn:Eg; [|eauto]. apply resp_good_usable in Eg.
    destruct (Hw r t1 t2) as [Hd Ha]; [apply elem_of_app; right; left|done|].
    assert (None ∉ r_aggs r) as Hn. { intros Hx. destruct (Ha _ Hx) as (d & ? & _). done. }
    destruct (ca_total (r_inst r) (r_hp r) (r_aggs r) (hd_host s) (hd_need s) Hn) as [x Hx]. rewrite Hx. cbn.
    destruct (hd_dur s =? 0).
    + destruct (r_dur r =? 0) eqn:E; [apply Z.eqb_eq in E; lia|eauto].
    + destruct (_ =? _); eauto.
  - unfold purge. destruct (truncate_total (hd_max s) (hd_pub s) Hmax) as [l' ->]. cbn. eauto.
  - unfold recalc. destruct (recalc_loop_total o (hd_max s) (ro_keys o) (hd_pub s) Hmax) as [l' ->]; [|cbn; eauto].
    intros k [key d] Hkd. destruct Ho as (_ & He & _). rewrite He in Hkd. apply elem_of_map_to_list in Hkd.
    by eapply nonull_reach; [exact H|by apply well_formed_prefix in Hw|].
Qed.

Lemma crash_split s tr w : hrun s tr (Crash w) → ∃ tr1 op tr2 m, tr = tr1 ++ op :: tr2 ∧ hrun s tr1 (Ok m) ∧ hop_ok m op ∧ hstep m op = Crash w.
Proof.
  remember (Crash w) as res eqn:E. intros H. induction H as [s|s op s' tr r Ho Hs H IH|s op why tr Ho Hs]; [done| |].
  - destruct (IH E) as (tr1 & op1 & tr2 & m & -> & Hr & ? & ?). exists (op :: tr1), op1, tr2, m. split; [done|]. split; [|done].
    by econstructor.
  - injection E as ->. exists [], op, tr, s. repeat split; try done. constructor.
Qed.
Lemma never_crashes hosts tr w : well_formed tr → ¬ hrun (hd_init hosts) tr (Crash w).
Proof.
  intros Hw H. apply crash_split in H as (tr1 & op & tr2 & m & -> & Hr & Ho & Hs).
  destruct (step_total _ _ _ op Hr) as [s' Hs']; [|done|congruence].
  change (op :: tr2) with ([op] ++ tr2) in Hw. rewrite app_assoc in Hw. by apply well_formed_prefix in Hw.
Qed.

(** ** One zone *)
Lemma latest_instant_of loc tr k l : one_zone loc tr → k.2 = loc → latest_at tr k l → latest_instant tr k.1 l.
Proof.
  intros Hz Hk [Hn Hl]. split; [done|]. intros key d. rewrite Hl. split.
  - intros [? <-]. done.
  - intros [Ha Hb]. split; [done|]. assert (Hr := reported_loc _ _ _ _ Hz (latest_reported _ _ _ Ha)).
    destruct (key_time key), k. cbn in *. congruence.
Qed.

(** ** Statuses *)
Lemma host_resps_snoc hp tr op : host_resps hp (tr ++ [op]) = host_resps hp tr ++
  match op with HResp r t1 t2 => if decide (r_hp r = hp) then [(r, t1, t2)] else [] | _ => [] end.
Proof.
  unfold host_resps. rewrite omap_app. f_equal. cbn. destruct op as [r t1 t2| |]; try done. by destruct (decide _).
Qed.
Lemma host_goods_snoc hp tr op : host_goods hp (tr ++ [op]) = host_goods hp tr ++
  match op with HResp r t1 t2 => if decide (r_hp r = hp ∧ usable r) then [(r, t1, t2)] else [] | _ => [] end.
Proof.
  unfold host_goods. rewrite host_resps_snoc, filter_app. f_equal. destruct op as [r t1 t2| |]; try done.
  destruct (decide (r_hp r = hp)) as [E|E].
  - rewrite filter_cons. cbn. destruct (decide (usable r)), (decide _); try done; tauto.
  - rewrite decide_False by tauto. done.
Qed.

Lemma status_same hp tr op hs : host_resps hp (tr ++ [op]) = host_resps hp tr → host_goods hp (tr ++ [op]) = host_goods hp tr →
  status_current hp tr hs → status_current hp (tr ++ [op]) hs.
Proof. unfold status_current. intros -> ->. done. Qed.

Lemma status_init hosts hp : (hd_status (hd_init hosts)) !! hp = if decide (hp ∈ hosts) then Some (hstatus0 hp) else None.
Proof.
  cbn. assert (∀ m : gmap string hstatus, fold_left (λ m hp, <[hp := hstatus0 hp]> m) hosts m !! hp =
    if decide (hp ∈ hosts) then Some (hstatus0 hp) else m !! hp) as G; [|by rewrite G, lookup_empty].
  induction hosts as [|h hosts IH]; intros m; cbn [fold_left].
  - rewrite decide_False by apply not_elem_of_nil. done.
  - rewrite IH. destruct (decide (hp ∈ hosts)) as [E|E].
    + rewrite decide_True by (by right). done.
    + destruct (decide (hp = h)) as [->|Eh].
      * rewrite decide_True by left. apply lookup_insert.
      * rewrite decide_False by (apply not_elem_of_cons; done). by rewrite lookup_insert_ne.
Qed.

Lemma host_goods_in hp tr x : x ∈ host_goods hp tr → HResp x.1.1 x.1.2 x.2 ∈ tr.
Proof.
  unfold host_goods. intros H. apply elem_of_list_filter in H as [_ H]. apply elem_of_list_omap in H as (op & Hop & H).
  destruct op as [r t1 t2| |]; try done. destruct (decide _); [|done]. injection H as <-. done.
Qed.

Lemma status_reach hosts tr s : hrun (hd_init hosts) tr (Ok s) → clock_set tr → ∀ hp,
  match hd_status s !! hp with
  | Some hs => hp ∈ hosts ∧ status_current hp tr hs
  | None => hp ∉ hosts
  end.
Proof.
  revert s. induction tr as [|op tr IH] using rev_ind; intros s H Ht hp.
  - inversion H; subst. rewrite status_init. destruct (decide _); [|done]. split; [done|]. done.
  - apply hrun_snoc in H as (m & H1 & H2 & H3).
    assert (clock_set tr) as Ht'. { intros r t1 t2 Hr. apply (Ht r t1 t2). apply elem_of_app. auto. }
    specialize (IH m H1 Ht' hp).
    assert (hd_status s !! hp = hd_status m !! hp → host_resps hp (tr ++ [op]) = host_resps hp tr →
            host_goods hp (tr ++ [op]) = host_goods hp tr →
            match hd_status s !! hp with
            | Some hs => hp ∈ hosts ∧ status_current hp (tr ++ [op]) hs
            | None => hp ∉ hosts
            end) as Hsame.
    { intros -> E2 E3. destruct (hd_status m !! hp); [|done]. destruct IH. split; [done|]. by apply status_same. }
    destruct op as [r t1 t2|now|o]; cbn in H3.
    + assert (Hc := conf_reach _ _ _ H1). destruct (consume_cases _ _ _ _ _ _ Hc H3) as (_ & _ & Es & _).
      destruct (decide (r_hp r = hp)) as [Ehp|Ehp].
      2:{ apply Hsame.
          - rewrite Es. destruct (hd_status m !! r_hp r); [|done]. by rewrite lookup_insert_ne.
          - rewrite host_resps_snoc, decide_False, app_nil_r by done. done.
          - rewrite host_goods_snoc, decide_False, app_nil_r by tauto. done. }
      rewrite Ehp in Es. destruct (hd_status m !! hp) as [hs|] eqn:Em.
      2:{ rewrite Es, Em. done. }
      rewrite Es, lookup_insert. destruct IH as (Hin & S1 & S2 & S3 & S4). split; [done|].
      unfold status_current. rewrite host_resps_snoc, decide_True by done. rewrite last_snoc.
      split; [done|]. split; [unfold update_status; cbn; repeat split; destruct (r_err r); done|].
      rewrite host_goods_snoc. unfold update_status. cbn.
      destruct (resp_good r) eqn:Eg.
      * apply resp_good_usable in Eg. rewrite decide_True by done. rewrite last_snoc. split; [|done].
        rewrite S3. destruct (host_goods hp tr) as [|x l] eqn:Egl; cbn.
        -- done.
        -- assert (x.1.2 ≠ 0) as Hx. { apply (Ht' x.1.1 x.1.2 x.2). apply (host_goods_in hp). rewrite Egl. left. }
           apply Z.eqb_neq in Hx. by rewrite Hx.
      * rewrite decide_False by (intros [_ Hu]; apply resp_good_usable in Hu; congruence). rewrite app_nil_r. done.
    + apply purge_host in H3 as (_ & _ & Es & _). apply Hsame; [by rewrite Es| |].
      * by rewrite host_resps_snoc, app_nil_r.
      * by rewrite host_goods_snoc, app_nil_r.
    + apply recalc_host in H3 as (_ & _ & Es & _). apply Hsame; [by rewrite Es| |].
      * by rewrite host_resps_snoc, app_nil_r.
      * by rewrite host_goods_snoc, app_nil_r.
Qed.

Lemma statuses_listed hosts tr s l : hrun (hd_init hosts) tr (Ok s) → clock_set tr →
  l ≡ₚ map_to_list (hd_status s) →
  NoDup (map hs_hp (safe_hosts l)) ∧
  (∀ hp, hp ∈ map hs_hp (safe_hosts l) ↔ hp ∈ hosts) ∧
  (∀ hs, hs ∈ safe_hosts l → status_current (hs_hp hs) tr hs).
Proof.
  intros H Ht Hl. assert (Hr := status_reach _ _ _ H Ht).
  assert (∀ kv, kv ∈ l → hs_hp kv.2 = kv.1 ∧ kv.1 ∈ hosts ∧ status_current kv.1 tr kv.2) as Hkv.
  { intros [k hs] Hk. rewrite Hl in Hk. apply elem_of_map_to_list in Hk. specialize (Hr k). rewrite Hk in Hr.
    destruct Hr as [? Hc]. split; [apply Hc|done]. }
  assert (map hs_hp (safe_hosts l) = map fst l) as E.
  { unfold safe_hosts. rewrite map_map. apply map_ext_in. intros kv Hin. apply elem_of_list_In in Hin. by apply Hkv. }
  rewrite E. split; [|split].
  - rewrite Hl. apply NoDup_fst_map_to_list.
  - intros hp. split.
    + intros Hin. apply elem_of_list_fmap in Hin as (kv & -> & Hin). by apply Hkv.
    + intros Hin. specialize (Hr hp). destruct (hd_status s !! hp) as [hs|] eqn:Es; [|done].
      apply elem_of_list_fmap. exists (hp, hs). split; [done|]. rewrite Hl. by apply elem_of_map_to_list.
  - intros hs Hin. apply elem_of_list_fmap in Hin as (kv & -> & Hin). destruct (Hkv _ Hin) as (E1 & _ & E3). by rewrite E1.
Qed.
