(** * Proofs about healthd's aggregation state, part 5: the statements used by
      THealthd.v *)
From Verif Require Import SHealthd PContent PHealthd PHealthd2 PHealthd3 PHealthd4 PMerge PMerge2.

Lemma wf_pos tr : well_formed tr → ∀ x, conf_dur tr = Some x → 0 < x.
Proof. intros H x. by apply conf_pos. Qed.
Lemma wf_drop_recalc tr o : well_formed (tr ++ [HRecalc o]) → well_formed tr.
Proof. apply well_formed_prefix. Qed.

Lemma t_stored hosts tr o s s' : hrun (hd_init hosts) tr (Ok s) → well_formed tr → hop_ok s (HRecalc o) →
  hstep s (HRecalc o) = Ok s' →
  (∀ p, p ∈ hd_pub s' → pa_time p ∈ hd_need s →
     ∃ l, NoDup (map fst l) ∧ (∀ key d, (key, d) ∈ l ↔ hd_host s !! key = Some d ∧ key_time key = pa_time p) ∧
       pa_ia p = merge_all (pa_time p).1 (map (d_ia ∘ snd) l)) ∧
  (∀ p, p ∈ hd_pub s' → pa_time p ∉ hd_need s → p ∈ hd_pub s).
Proof.
  intros H Hw Ho Hst. cbn in Hst. destruct (recalc_published _ _ _ _ _ H (wf_pos _ Hw) Ho Hst) as [J _]. split.
  - intros p Hp Hn. destruct (J p Hp) as [(_ & l & Hl & Hv)|[_ Hx]]; [|done]. exists l. split; [|split; [|done]].
    + rewrite Hl. unfold at_time.
      assert (NoDup (map fst (map_to_list (hd_host s)))) as Hnd by apply NoDup_fst_map_to_list. revert Hnd.
      generalize (map_to_list (hd_host s)). intros m Hnd. induction m as [|x m IH]; [constructor|].
      cbn in Hnd. apply NoDup_cons in Hnd as [Hx Hnd]. rewrite filter_cons. destruct (decide _); [|auto].
      cbn. apply NoDup_cons. split; [|auto]. intros Hc. apply Hx.
      apply elem_of_list_fmap in Hc as (y & Hy & Hy2). apply elem_of_list_filter in Hy2 as [_ ?].
      apply elem_of_list_fmap. eauto.
    + intros key d. rewrite Hl. unfold at_time. rewrite elem_of_list_filter, elem_of_map_to_list. cbn. tauto.
  - intros p Hp Hn. destruct (J p Hp) as [[Hx _]|[? _]]; done.
Qed.

Lemma t_latest hosts tr1 tr2 o s' key d p :
  hrun (hd_init hosts) ((tr1 ++ tr2) ++ [HRecalc o]) (Ok s') → serials_honest (tr1 ++ tr2) → well_formed (tr1 ++ tr2) →
  Forall (λ op, ¬ is_recalc op) tr2 → is_latest (tr1 ++ tr2) key d → ¬ is_latest tr1 key d →
  p ∈ hd_pub s' → pa_time p = key_time key →
  ∃ l, latest_at (tr1 ++ tr2) (key_time key) l ∧ pa_ia p = merge_all (key_time key).1 (map (d_ia ∘ snd) l).
Proof. intros H Hh Hw. by apply (published_latest _ _ _ _ _ _ _ _ H Hh (wf_pos _ Hw)). Qed.

Lemma t_squeezed hosts tr1 tr2 o s' key d :
  hrun (hd_init hosts) ((tr1 ++ tr2) ++ [HRecalc o]) (Ok s') → serials_honest (tr1 ++ tr2) → well_formed (tr1 ++ tr2) →
  Forall (λ op, ¬ is_recalc op) tr2 → is_latest (tr1 ++ tr2) key d → ¬ is_latest tr1 key d →
  (∃ p, p ∈ hd_pub s' ∧ pa_time p = key_time key) ∨
  (∃ x, conf_dur (tr1 ++ tr2) = Some x ∧ Z.of_nat (length (hd_pub s')) = 7200000000000 `div` x ∧
     ∀ q, q ∈ hd_pub s' → (key_time key).1 ≤ ia_start (pa_ia q)).
Proof. intros H Hh Hw. by apply (published_or_squeezed _ _ _ _ _ _ _ H Hh (wf_pos _ Hw)). Qed.

Lemma t_kept hosts tr1 o1 tr2 o s s' p :
  hrun (hd_init hosts) (tr1 ++ HRecalc o1 :: tr2) (Ok s) → well_formed (tr1 ++ HRecalc o1 :: tr2) →
  hop_ok s (HRecalc o) → hstep s (HRecalc o) = Ok s' →
  p ∈ hd_pub s' → (∀ key d, reported tr2 key d → key_time key ≠ pa_time p) → p ∈ hd_pub s.
Proof. intros H Hw Ho Hs. by apply (published_kept _ _ _ _ _ _ _ _ H Ho Hs (wf_pos _ Hw)). Qed.

Lemma t_sorted hosts tr s loc : hrun (hd_init hosts) tr (Ok s) → well_formed tr → one_zone loc tr → increasing (hd_pub s).
Proof. intros H Hw Hz. by apply (published_sorted _ _ _ _ H (wf_pos _ Hw) Hz). Qed.
Lemma t_bounded hosts tr s : hrun (hd_init hosts) tr (Ok s) → well_formed tr →
  StronglySorted (λ p q, ia_start (pa_ia p) ≤ ia_start (pa_ia q)) (hd_pub s) ∧ NoDup (map pa_time (hd_pub s)) ∧
  match conf_dur tr with
  | Some x => Z.of_nat (length (hd_pub s)) ≤ 7200000000000 `div` x
  | None => hd_pub s = []
  end.
Proof.
  intros H Hw. destruct (pub_reach _ _ _ H (wf_pos _ Hw)) as [H1 H2 H3]. split; [done|]. split; [done|].
  assert (Hc := conf_reach _ _ _ H). unfold conf_inv in Hc. destruct (conf_dur tr) as [x|] eqn:E.
  - destruct Hc as (_ & _ & E3). rewrite E3, Z.quot_div_nonneg in H3; [done|done|by eapply wf_pos].
  - by destruct Hc as (_ & _ & _ & _ & ?).
Qed.

Lemma t_grows hosts tr1 tr2 s1 s2 p1 p2 c :
  hrun (hd_init hosts) tr1 (Ok s1) → hrun s1 tr2 (Ok s2) →
  serials_honest (tr1 ++ tr2) → well_formed (tr1 ++ tr2) →
  p1 ∈ hd_pub s1 → p2 ∈ hd_pub s2 → pa_time p1 = pa_time p2 →
  never_expires (tr1 ++ tr2) (pa_time p1) → growing (tr1 ++ tr2) (pa_time p1) c →
  sane_reports (tr1 ++ tr2) c → sums_fit (tr1 ++ tr2) (pa_time p1) c →
  ctr_val c (pa_ia p1) ≤ ctr_val c (pa_ia p2).
Proof. intros H1 H2 Hh Hw. by apply (published_grows _ _ _ _ _ _ _ _ H1 H2 Hh (wf_pos _ Hw)). Qed.

(** what is published for an interval always is the merge of the latest data at
    some earlier recalculation *)
Lemma t_from hosts tr s p : hrun (hd_init hosts) tr (Ok s) → serials_honest tr → well_formed tr → p ∈ hd_pub s →
  ∃ tra o trb l, tr = tra ++ HRecalc o :: trb ∧ latest_at tra (pa_time p) l ∧
    pa_ia p = merge_all (pa_time p).1 (map (d_ia ∘ snd) l).
Proof.
  intros H Hh Hw Hp. assert (hrun (hd_init hosts) [] (Ok (hd_init hosts))) as H0 by constructor.
  destruct (pub_from hosts tr [] _ _ p H0 H Hh (wf_pos _ Hw) Hp) as [Hin|?]; [|done].
  cbn in Hin. by apply elem_of_nil in Hin.
Qed.

Lemma t_instant hosts tr1 tr2 o s' key d loc :
  hrun (hd_init hosts) ((tr1 ++ tr2) ++ [HRecalc o]) (Ok s') → serials_honest (tr1 ++ tr2) → well_formed (tr1 ++ tr2) →
  one_zone loc (tr1 ++ tr2) →
  Forall (λ op, ¬ is_recalc op) tr2 → is_latest (tr1 ++ tr2) key d → ¬ is_latest tr1 key d →
  (∀ p q, p ∈ hd_pub s' → q ∈ hd_pub s' → ia_start (pa_ia p) = ia_start (pa_ia q) → p = q) ∧
  (∀ p, p ∈ hd_pub s' → ia_start (pa_ia p) = (key_time key).1 →
     ∃ l, latest_instant (tr1 ++ tr2) (key_time key).1 l ∧ pa_ia p = merge_all (key_time key).1 (map (d_ia ∘ snd) l)).
Proof.
  intros H Hh Hw Hz Hnr Hl Hnl.
  assert (well_formed ((tr1 ++ tr2) ++ [HRecalc o])) as Hw'.
  { intros r t1 t2 Hr. apply elem_of_app in Hr as [Hr|Hr]; [by apply (Hw r t1 t2)|]. by apply elem_of_list_singleton in Hr. }
  assert (one_zone loc ((tr1 ++ tr2) ++ [HRecalc o])) as Hz'.
  { intros r t1 t2 x Hr. apply elem_of_app in Hr as [Hr|Hr]; [by apply (Hz r t1 t2)|]. by apply elem_of_list_singleton in Hr. }
  assert (Hinc := t_sorted _ _ _ _ H Hw' Hz'). split.
  - intros p q Hp Hq E. unfold increasing in Hinc. clear -Hinc Hp Hq E.
    induction (hd_pub s') as [|x l IH]; [by apply elem_of_nil in Hp|]. inversion Hinc as [|? ? Hi Hf]; subst.
    rewrite Forall_forall in Hf. apply elem_of_cons in Hp as [->|Hp], Hq as [->|Hq]; [done| | |by apply IH].
    + specialize (Hf _ Hq). cbn in Hf. lia.
    + specialize (Hf _ Hp). cbn in Hf. lia.
  - intros p Hp E. assert (pa_time p = key_time key) as Et.
    { destruct (pub_reported _ _ _ _ H (wf_pos _ Hw') Hp) as (key' & d' & Hr & Ht).
      assert (L1 := reported_loc _ _ _ _ Hz' Hr). assert (L2 := reported_loc _ _ _ _ Hz (latest_reported _ _ _ Hl)).
      rewrite Ht in L1. unfold pa_time in *. cbn in L1. destruct (key_time key). cbn in *. congruence. }
    destruct (t_latest _ _ _ _ _ _ _ _ H Hh Hw Hnr Hl Hnl Hp Et) as (l & Hll & Hv).
    exists l. split; [|done]. apply (latest_instant_of loc); [done| |done].
    by apply (reported_loc _ _ _ _ Hz (latest_reported _ _ _ Hl)).
Qed.
