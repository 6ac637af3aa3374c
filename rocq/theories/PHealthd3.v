(** * Proofs about healthd's aggregation state, part 3: counters, repeated
      polls, malformed responses, statuses *)
From Verif Require Import SHealthd PContent PHealthd PHealthd2 PMerge PMerge2.

(** ** Additive counters *)
Lemma ctr_new c s : ctr_val c (new_ia s) = 0.
Proof. destruct c as [[]|j []]; try done; cbn; unfold mget; rewrite lookup_empty; try done; destruct c; done. Qed.
Lemma ctr_merge c a b : int64_ia a → int64_ia b → ctr_val c (ia_merge a b) = w64 (ctr_val c a + ctr_val c b).
Proof.
  intros Ha Hb. destruct c as [c|j c].
  - destruct (thm_merge_adds a b Ha Hb) as (_ & _ & H1 & H2 & H3 & _). destruct c; cbn [ctr_val mctr_val]; [auto|auto|apply H3|apply H3].
  - destruct (thm_merge_adds_job a b j Ha Hb) as (? & ? & ? & ? & ? & ? & ? & H1 & H2 & H3 & _).
    destruct c as [| | | | | | |c]; cbn [ctr_val jctr_val]; try done. destruct c; cbn [mctr_val]; [auto|auto|apply H3|apply H3].
Qed.
Lemma int64_new s : int64_ia (new_ia s).
Proof. apply (int64_ia_of s []). intros c H. by apply elem_of_nil in H. Qed.
Lemma ctr_int64 c a : int64_ia a → in_int64 (ctr_val c a).
Proof.
  intros H. assert (E := ctr_merge c (new_ia 0) a (int64_new 0) H).
  (* the value is found in a map of int64s, or is 0 *)
  destruct H as (_ & (M1 & M2 & M3) & J). destruct c as [c|j c]; cbn [ctr_val].
  - destruct c; cbn [mctr_val]; unfold ev, er, tm, mget.
    + destruct (am_events _ !! e) eqn:X; [eauto|done].
    + destruct (am_errs _ !! e) eqn:X; [by eapply M3|done].
    + destruct (am_timers _ !! e) eqn:X; [by eapply M2|done].
    + destruct (am_timers _ !! e) eqn:X; [by eapply M2|done].
  - unfold mget. destruct (ia_jobs a !! j) as [x|] eqn:X; [|destruct c as [| | | | | | |[]]; cbn; unfold ev, er, tm, mget; try rewrite lookup_empty; done].
    apply J in X as ((N1 & N2 & N3) & (T1 & T2 & _) & C1 & C2 & C3 & C4 & C5). destruct c as [| | | | | | |c]; cbn [jctr_val default from_option]; try done.
    destruct c; cbn [mctr_val]; unfold ev, er, tm, mget.
    + destruct (am_events _ !! e) eqn:X; [eauto|done].
    + destruct (am_errs _ !! e) eqn:X; [by eapply N3|done].
    + destruct (am_timers _ !! e) eqn:X; [by eapply N2|done].
    + destruct (am_timers _ !! e) eqn:X; [by eapply N2|done].
Qed.
Lemma merge_all_ctr c s l : (∀ i, i ∈ l → int64_ia i) →
  ctr_val c (merge_all s l) = w64 (zsum (map (ctr_val c) l)) ∧ int64_ia (merge_all s l).
Proof.
  unfold merge_all. assert (∀ a, int64_ia a → (∀ i, i ∈ l → int64_ia i) →
    ctr_val c (fold_left ia_merge l a) = w64 (ctr_val c a + zsum (map (ctr_val c) l)) ∧ int64_ia (fold_left ia_merge l a)) as G.
  { induction l as [|x l IH]; intros a Ha Hl; cbn [fold_left map].
    - cbn. rewrite Z.add_0_r, w64_id; [done|]. by apply ctr_int64.
    - assert (int64_ia x) as Hx by (apply Hl; left).
      destruct (IH (ia_merge a x)) as [E I]; [by apply int64_ia_merge|intros i Hi; apply Hl; by right|].
      split; [|done]. rewrite E, ctr_merge by done. rewrite w64_add_l. f_equal. cbn [zsum foldr]. unfold zsum. cbn. lia. }
  intros Hl. destruct (G (new_ia s) (int64_new s) Hl) as [E I]. split; [|done]. by rewrite E, ctr_new.
Qed.

(** ** Growing data *)
Lemma reports_key_snoc tr op key : reports_key (tr ++ [op]) key =
  reports_key tr key ++ match op with HResp r _ _ => if decide (usable r) then reports_at r key else [] | _ => [] end.
Proof. unfold reports_key. rewrite map_app, concat_app. cbn. by rewrite app_nil_r. Qed.
Lemma reports_key_app tr1 tr2 key : reports_key (tr1 ++ tr2) key = reports_key tr1 key ++ reports_key tr2 key.
Proof. unfold reports_key. by rewrite map_app, concat_app. Qed.
Lemma latest_in_reports tr key d : is_latest tr key d → d ∈ reports_key tr key.
Proof.
  intros (tr1 & r & t1 & t2 & tr2 & -> & [Hu _] & Hl & _). rewrite reports_key_app.
  apply elem_of_app. right. unfold reports_key. cbn. rewrite decide_True by done. apply elem_of_app. left. by apply last_Some_elem_of.
Qed.
Lemma latest_reported tr key d : is_latest tr key d → reported tr key d.
Proof.
  intros (tr1 & r & t1 & t2 & tr2 & -> & [Hu _] & Hl & _). exists r, t1, t2. split; [apply elem_of_app; right; left|]. split; [done|].
  by apply last_Some_elem_of.
Qed.

#[global] Instance counted_dec tr r : Decision (counted tr r).
Proof. unfold counted. destruct (conf_dur tr); apply _. Defined.

Lemma ss_app_le {A} (R : A → A → Prop) l1 l2 x y : StronglySorted R (l1 ++ l2) → x ∈ l1 → y ∈ l2 → R x y.
Proof.
  induction l1 as [|z l1 IH]; cbn; intros H Hx Hy; [by apply elem_of_nil in Hx|].
  inversion H as [|? ? H1 H2]; subst. apply elem_of_cons in Hx as [->|Hx]; [|auto].
  rewrite Forall_forall in H2. apply H2. apply elem_of_app. auto.
Qed.
Lemma ss_app_l {A} (R : A → A → Prop) l1 l2 : StronglySorted R (l1 ++ l2) → StronglySorted R l1.
Proof.
  induction l1 as [|z l1 IH]; cbn; intros H; [constructor|]. inversion H as [|? ? H1 H2]; subst.
  constructor; [auto|]. rewrite Forall_app in H2. tauto.
Qed.

Lemma latest_grow (f : dagg → Z) tr2 : ∀ tr1 key d,
  is_latest tr1 key d →
  (∀ tra now trb, tr1 ++ tr2 = tra ++ HPurge now :: trb → ¬ expires tra key now) →
  StronglySorted (λ d1 d2, f d1 ≤ f d2) (reports_key (tr1 ++ tr2) key) →
  ∃ d', is_latest (tr1 ++ tr2) key d' ∧ f d ≤ f d'.
Proof.
  induction tr2 as [|op tr2 IH] using rev_ind; intros tr1 key d Hl Hp Hs.
  - rewrite app_nil_r in *. exists d. split; [done|lia].
  - rewrite app_assoc in *. destruct (IH tr1 key d Hl) as (d' & Hd' & Hle).
    { intros tra now trb E. apply (Hp tra now (trb ++ [op])). rewrite E, <- app_assoc. done. }
    { rewrite reports_key_snoc in Hs. by apply ss_app_l in Hs. }
    assert (¬ touches (tr1 ++ tr2) key op ∨ ∃ r t1 t2 d2, op = HResp r t1 t2 ∧ counted (tr1 ++ tr2) r ∧ last (reports_at r key) = Some d2) as [Hn|(r & t1 & t2 & d2 & -> & Hc & Hd2)].
    { destruct op as [r t1 t2|now|o].
      - destruct (decide (counted (tr1 ++ tr2) r)) as [Hc|Hc]; [|left; cbn; tauto].
        destruct (last (reports_at r key)) as [d2|] eqn:E; [right; eauto 10|]. left. cbn. apply last_None in E. tauto.
      - left. cbn. by apply (Hp (tr1 ++ tr2) now []).
      - left. cbn. tauto. }
    + exists d'. split; [|done]. apply latest_snoc. auto.
    + exists d2. split; [apply latest_snoc; right; eauto 10|].
      rewrite reports_key_snoc in Hs. etrans; [exact Hle|].
      rewrite decide_True in Hs by apply Hc. apply (ss_app_le _ _ _ d' d2 Hs); [by apply latest_in_reports|by apply last_Some_elem_of].
Qed.

Lemma zsum_sub (f : hkey * dagg → Z) l1 : ∀ l2, NoDup (map fst l1) → (∀ x, x ∈ l2 → 0 ≤ f x) →
  (∀ x, x ∈ l1 → ∃ y, y ∈ l2 ∧ y.1 = x.1 ∧ f x ≤ f y) → zsum (map f l1) ≤ zsum (map f l2).
Proof.
  induction l1 as [|x l1 IH]; intros l2 Hn Hp Hs; cbn.
  - induction l2 as [|y l2 IH2]; cbn; [lia|]. assert (0 ≤ f y) by (apply Hp; left).
    assert (0 ≤ zsum (map f l2)); [|unfold zsum in *; lia]. apply IH2; [intros z Hz; apply Hp; by right|].
    intros z Hz. by apply elem_of_nil in Hz.
  - destruct (Hs x) as (y & Hy & Hk & Hle); [left|]. apply elem_of_Permutation in Hy as (l2' & Hl2).
    cbn in Hn. apply NoDup_cons in Hn as [Hx Hn].
    assert (zsum (map f l1) ≤ zsum (map f l2')) as Hrec.
    { apply IH; [done| |].
      - intros z Hz. apply Hp. rewrite Hl2. by right.
      - intros z Hz. destruct (Hs z) as (w & Hw & Hwk & Hwle); [by right|]. exists w. split; [|done].
        rewrite Hl2 in Hw. apply elem_of_cons in Hw as [->|Hw]; [|done]. exfalso. apply Hx.
        rewrite <- Hk, Hwk. apply elem_of_list_fmap. eauto. }
    rewrite (zsum_perm (map f l2) (map f (y :: l2'))); [cbn; unfold zsum in *; lia|].
    by rewrite Hl2.
Qed.

(** where published data comes from *)
Lemma pub_from hosts tr2 : ∀ tr1 s1 s2 p, hrun (hd_init hosts) tr1 (Ok s1) → hrun s1 tr2 (Ok s2) →
  serials_honest (tr1 ++ tr2) → (∀ x, conf_dur (tr1 ++ tr2) = Some x → 0 < x) → p ∈ hd_pub s2 →
  p ∈ hd_pub s1 ∨
  ∃ tra o trb l, tr2 = tra ++ HRecalc o :: trb ∧ latest_at (tr1 ++ tra) (pa_time p) l ∧
    pa_ia p = merge_all (pa_time p).1 (map (d_ia ∘ snd) l).
Proof.
  induction tr2 as [|op tr2 IH] using rev_ind; intros tr1 s1 s2 p H1 H2 Hh Hd Hp.
  - inversion H2; subst. auto.
  - apply hrun_snoc in H2 as (m & Hm & Ho & Hst).
    assert (hrun (hd_init hosts) (tr1 ++ tr2) (Ok m)) as Hrun by (apply hrun_app; eauto).
    rewrite app_assoc in Hh, Hd.
    assert (∀ x, conf_dur (tr1 ++ tr2) = Some x → 0 < x) as Hd'. { intros x E. apply Hd. by apply conf_app_some. }
    assert (Hh' := honest_prefix _ _ Hh).
    assert (p ∈ hd_pub m → p ∈ hd_pub s1 ∨
      ∃ tra o trb l, tr2 ++ [op] = tra ++ HRecalc o :: trb ∧ latest_at (tr1 ++ tra) (pa_time p) l ∧
        pa_ia p = merge_all (pa_time p).1 (map (d_ia ∘ snd) l)) as Hold.
    { intros Hx. destruct (IH _ _ _ _ H1 Hm Hh' Hd' Hx) as [|(tra & o & trb & l & -> & Hl & Hv)]; [auto|].
      right. exists tra, o, (trb ++ [op]), l. rewrite <- app_assoc. done. }
    destruct op as [r t1 t2|now|o]; cbn in Hst.
    + apply (consume_cases (tr1 ++ tr2)) in Hst as (_ & Hpub & _); [|by eapply conf_reach]. rewrite Hpub in Hp. auto.
    + apply purge_host in Hst as (_ & _ & _ & _ & _ & Ht). destruct (truncate_ok _ _ _ Ht) as (n & E & _).
      rewrite E in Hp. apply Hold. rewrite <- (take_drop n (hd_pub m)). apply elem_of_app. auto.
    + destruct (recalc_published _ _ _ _ _ Hrun Hd' Ho Hst) as [J1 _].
      destruct (J1 p Hp) as [(_ & l & Hl & Hv)|[? _]]; [|auto].
      right. exists tr2, o, [], l. split; [done|]. split; [|done]. by eapply at_time_latest.
Qed.

Lemma published_grows hosts tr1 tr2 s1 s2 p1 p2 c :
  hrun (hd_init hosts) tr1 (Ok s1) → hrun s1 tr2 (Ok s2) →
  serials_honest (tr1 ++ tr2) → (∀ x, conf_dur (tr1 ++ tr2) = Some x → 0 < x) →
  p1 ∈ hd_pub s1 → p2 ∈ hd_pub s2 → pa_time p1 = pa_time p2 →
  never_expires (tr1 ++ tr2) (pa_time p1) → growing (tr1 ++ tr2) (pa_time p1) c →
  sane_reports (tr1 ++ tr2) c → sums_fit (tr1 ++ tr2) (pa_time p1) c →
  ctr_val c (pa_ia p1) ≤ ctr_val c (pa_ia p2).
Proof.
  intros H1 H2 Hh Hd Hp1 Hp2 Ht Hx Hg Hsane Hfit.
  destruct (pub_from _ _ _ _ _ _ H1 H2 Hh Hd Hp2) as [Hin|(tra & o & trb & l2 & -> & Hl2 & Hv2)].
  { assert (Hd1 : ∀ x, conf_dur tr1 = Some x → 0 < x). { intros x E. apply Hd. by apply conf_app_some. }
    destruct (pub_reach _ _ _ H1 Hd1) as [Hnd _ _].
    assert (p1 = p2) as ->; [|lia]. clear - Hnd Hp1 Hin Ht.
    induction (hd_pub s1) as [|q l IH]; [by apply elem_of_nil in Hp1|]. cbn in Hnd. apply NoDup_cons in Hnd as [Hq Hnd].
    apply elem_of_cons in Hp1 as [->|Hp1], Hin as [->|Hin]; auto; exfalso; apply Hq; apply elem_of_list_fmap; eauto. }
  assert (hrun (hd_init hosts) [] (Ok (hd_init hosts))) as H0 by constructor.
  destruct (pub_from hosts tr1 [] _ _ p1 H0 H1) as [Hin|(tra1 & o1 & trb1 & l1 & E1 & Hl1 & Hv1)].
  { by apply honest_prefix in Hh. }
  { intros x E. apply Hd. by apply conf_app_some. }
  { done. }
  { cbn in Hin. by apply elem_of_nil in Hin. }
  cbn [app] in Hl1.
  set (f := λ kd : hkey * dagg, ctr_val c (d_ia kd.2)).
  assert (∀ tr' tr'' l k, tr' ++ tr'' = tr1 ++ tra ++ HRecalc o :: trb → latest_at tr' k l → k = pa_time p1 →
    (∀ x, x ∈ l → 0 ≤ f x) ∧ 0 ≤ zsum (map f l) ∧
    ctr_val c (merge_all k.1 (map (d_ia ∘ snd) l)) = zsum (map f l)) as Hval.
  { intros tr' tr'' l k E Hl Hk.
    assert (∀ x, x ∈ l → int64_ia (d_ia x.2) ∧ 0 ≤ f x) as Hs.
    { intros [key d] Hin. destruct Hl as [_ Hl]. apply Hl in Hin as [Hin _]. apply latest_reported in Hin as (r & t1 & t2 & Hr & Hdd).
      apply (Hsane key d). exists r, t1, t2. split; [|done]. rewrite <- E. apply elem_of_app. auto. }
    assert (∀ x, x ∈ l → 0 ≤ f x) as Hs0 by (intros x Hin; by apply Hs).
    split; [done|]. assert (0 ≤ zsum (map f l)) as Hz.
    { clear - Hs0. induction l as [|x l IH]; [done|]. cbn. assert (0 ≤ f x) by (apply Hs0; left).
      assert (0 ≤ zsum (map f l)); [|unfold zsum in *; lia]. apply IH. intros y Hy. apply Hs0. by right. }
    split; [done|].
    destruct (merge_all_ctr c k.1 (map (d_ia ∘ snd) l)) as [Ev _].
    { intros i Hi. apply elem_of_list_fmap in Hi as (x & -> & Hi). by apply Hs. }
    rewrite Ev, map_map. change (map (λ x, ctr_val c ((d_ia ∘ snd) x)) l) with (map f l). apply w64_id.
    split; [lia|]. subst k. apply (Hfit tr' tr'' l); done. }
  rewrite Hv1, Hv2.
  destruct (Hval tra1 (HRecalc o1 :: trb1 ++ tra ++ HRecalc o :: trb) l1 (pa_time p1)) as (_ & _ & ->); [|done|done|].
  { rewrite E1, <- app_assoc. done. }
  destruct (Hval (tr1 ++ tra) (HRecalc o :: trb) l2 (pa_time p2)) as (Hpos & _ & ->); [|done|done|].
  { by rewrite <- app_assoc. }
  apply zsum_sub; [by destruct Hl1|done|].
  intros [key d] Hin. destruct Hl1 as [_ Hl1]. apply Hl1 in Hin as [Hin Hk].
  destruct (latest_grow (λ d, ctr_val c (d_ia d)) (HRecalc o1 :: trb1 ++ tra) tra1 key d Hin) as (d' & Hd' & Hle).
  { intros a now b E. apply (Hx a now (b ++ HRecalc o :: trb) key); [|done].
    replace (tr1 ++ tra ++ HRecalc o :: trb) with ((tra1 ++ HRecalc o1 :: trb1 ++ tra) ++ HRecalc o :: trb).
    - rewrite E, <- app_assoc. done.
    - rewrite E1, <- !app_assoc. cbn. by rewrite <- app_assoc. }
  { specialize (Hg key Hk). rewrite E1 in Hg.
    replace ((tra1 ++ HRecalc o1 :: trb1) ++ tra ++ HRecalc o :: trb) with ((tra1 ++ HRecalc o1 :: trb1 ++ tra) ++ HRecalc o :: trb) in Hg
      by (rewrite <- !app_assoc; cbn; by rewrite <- app_assoc).
    rewrite reports_key_app in Hg. by apply ss_app_l in Hg. }
  exists (key, d'). split; [|done]. destruct Hl2 as [_ Hl2]. apply Hl2. split; [|by rewrite Hk].
  rewrite E1, <- app_assoc. done.
Qed.
