(** * Published counts do not go down *)
From Verif Require Import PApi SSystem PContent PContent2 PAgg PAgg2 PHealthd PNum2 PWire PWire2 PHealthEx PHealthdEx PSystem PSystem2.

(** ** sums *)
Lemma zsum_perm (l l' : list Z) : l ≡ₚ l' → zsum l = zsum l'.
Proof. induction 1; cbn in *; unfold zsum in *; cbn; lia. Qed.
Lemma zsum_nonneg {A} (f : A → Z) l : (∀ x, x ∈ l → 0 ≤ f x) → 0 ≤ zsum (map f l).
Proof.
  induction l as [|x l IH]; intros H; [cbn; lia|]. cbn. assert (0 ≤ f x) by (apply H; left).
  assert (0 ≤ zsum (map f l)) by (apply IH; intros y Hy; apply H; by right). unfold zsum in *. cbn in *. lia.
Qed.
Lemma zsum_le {A} (f g : A → Z) l : (∀ x, x ∈ l → f x ≤ g x) → zsum (map f l) ≤ zsum (map g l).
Proof.
  induction l as [|x l IH]; intros H; [cbn; lia|]. cbn. assert (f x ≤ g x) by (apply H; left).
  assert (zsum (map f l) ≤ zsum (map g l)) by (apply IH; intros y Hy; apply H; by right). unfold zsum in *. cbn in *. lia.
Qed.
Lemma zsum_dominated {A B} (f g : A * B → Z) l1 : ∀ l2, NoDup (map fst l1) →
  (∀ i k, (i, k) ∈ l1 → ∃ k', (i, k') ∈ l2 ∧ f (i, k) ≤ g (i, k')) → (∀ x, x ∈ l2 → 0 ≤ g x) →
  zsum (map f l1) ≤ zsum (map g l2).
Proof.
  induction l1 as [|[i k] l1 IH]; intros l2 Hnd Hl Hg; [cbn; by apply zsum_nonneg|].
  cbn in Hnd. apply NoDup_cons in Hnd as [Hi Hnd]. destruct (Hl i k) as (k' & Hin & Hle); [left|].
  apply elem_of_list_split in Hin as (a & b & ->).
  assert (Hp : a ++ (i, k') :: b ≡ₚ (i, k') :: (a ++ b)) by (symmetry; apply Permutation_middle).
  rewrite (zsum_perm (map g (a ++ (i, k') :: b)) (map g ((i, k') :: (a ++ b)))); [|by apply Permutation_map].
  cbn. assert (zsum (map f l1) ≤ zsum (map g (a ++ b))).
  { apply IH; [done| |].
    - intros j m Hj. destruct (Hl j m) as (m' & Hin & Hle'); [by right|]. exists m'. split; [|done].
      rewrite Hp in Hin. apply elem_of_cons in Hin as [Heq|Hin]; [|done]. injection Heq as -> ->.
      destruct Hi. apply elem_of_list_fmap. by exists (i, m).
    - intros x Hx. apply Hg. rewrite Hp. by right. }
  unfold zsum in *. cbn in *. lia.
Qed.

(** ** tallies *)
Lemma omap_len_app {A B} (f : A → option B) l1 l2 : (length (omap f l1) ≤ length (omap f (l1 ++ l2)))%nat.
Proof. rewrite omap_app, app_length. lia. Qed.
Lemma filter_len_app {A} (P : A → Prop) `{!∀ x, Decision (P x)} l1 l2 : (length (filter P l1) ≤ length (filter P (l1 ++ l2)))%nat.
Proof. rewrite filter_app, app_length. lia. Qed.
Lemma m_tally_app c l1 l2 : match c with KTimerSum _ => False | _ => True end → 0 ≤ m_tally c l1 ≤ m_tally c (l1 ++ l2).
Proof.
  destruct c; try done; intros _; cbn; (split; [lia|]); apply inj_le, omap_len_app.
Qed.
Lemma j_tally_app c l1 l2 : match c with KSum | KIn (KTimerSum _) => False | _ => True end → 0 ≤ j_tally c l1 ≤ j_tally c (l1 ++ l2).
Proof.
  destruct c; try done; intros H; cbn; try (apply m_tally_app; by destruct c); (split; [lia|]); apply inj_le;
    try apply omap_len_app; unfold completions_with, completions_of; rewrite omap_app; apply filter_len_app.
Qed.
Lemma tally_app c l1 l2 : counting c → 0 ≤ tally c l1 ≤ tally c (l1 ++ l2).
Proof.
  destruct c as [c|j c]; cbn.
  - intros H. apply m_tally_app. by destruct c.
  - intros H. unfold of_job. rewrite filter_app. apply j_tally_app. destruct c as [| | | | | | |[]]; done.
Qed.
Lemma m_tally_len c l : match c with KTimerSum _ => False | _ => True end → m_tally c l ≤ Z.of_nat (length l).
Proof. destruct c; try done; intros _; cbn; apply inj_le, omap_length_le. Qed.
Lemma j_tally_len c l : match c with KSum | KIn (KTimerSum _) => False | _ => True end → j_tally c l ≤ Z.of_nat (length l).
Proof.
  destruct c; try done; intros H; cbn; try (apply m_tally_len; by destruct c); apply inj_le;
    try apply omap_length_le; unfold completions_with; (etrans; [apply filter_length|apply omap_length_le]).
Qed.
Lemma tally_len c l : counting c → tally c l ≤ Z.of_nat (length l).
Proof.
  destruct c as [c|j c]; cbn; intros H.
  - apply m_tally_len. by destruct c.
  - etrans; [apply j_tally_len; destruct c as [| | | | | | |[]]; done|]. apply inj_le. unfold of_job. apply filter_length.
Qed.

(** ** histories of prefixes *)
Lemma hist_app i tr1 tr2 : hist i (tr1 ++ tr2) = hist i tr1 ++ hist i tr2.
Proof. apply omap_app. Qed.
Lemma sys_recv_hist ff d P zone tr ops i k : sys ff d P zone tr ops → SRecv i k ∈ tr → (k < length (hist i tr))%nat.
Proof.
  assert (Hl : ∀ tr e, SRecv i k ∈ tr ++ [e] → SRecv i k ∈ tr ∨ e = SRecv i k).
  { intros tr' e [H|H]%elem_of_app; [by left|]. apply elem_of_list_singleton in H. by right. }
  induction 1 as [|tr ops j t o HS IH|tr ops j m t out msg code body loc nanos x part w s ts stack w' r t1 t2 HS IH Hk _ _ _ _
                 |tr ops r t1 t2 HS IH _|tr ops now HS IH|tr ops o HS IH]; intros Hin.
  - by apply elem_of_nil in Hin.
  - apply Hl in Hin as [Hin|[=]]. specialize (IH Hin). rewrite hist_app, app_length. lia.
  - rewrite hist_app, app_length. apply Hl in Hin as [Hin|[= -> ->]]; [specialize (IH Hin); lia|].
    apply lookup_lt_Some in Hk. lia.
  - apply Hl in Hin as [Hin|[=]]. specialize (IH Hin). rewrite hist_app, app_length. lia.
  - apply Hl in Hin as [Hin|[=]]. specialize (IH Hin). rewrite hist_app, app_length. lia.
  - apply Hl in Hin as [Hin|[=]]. specialize (IH Hin). rewrite hist_app, app_length. lia.
Qed.
Lemma procs_ok_prefix d P tr1 tr2 : procs_ok d P (tr1 ++ tr2) → procs_ok d P tr1.
Proof.
  intros [H1 H2 H3 H4 H5 H6]. split; try done.
  - intros i. specialize (H4 i). rewrite hist_app in H4. unfold clock_monotone in *. rewrite map_app in H4.
    by apply StronglySorted_app_inv_l in H4.
  - intros i t o Hin. apply (H5 i). rewrite hist_app. apply elem_of_app. by left.
  - intros i s. eapply Z.le_lt_trans; [|apply (H6 i s)]. apply inj_le. rewrite hist_app. apply omap_len_app.
Qed.
Lemma kept_prefix d s tr1 tr2 : kept d s (tr1 ++ tr2) → kept d s tr1.
Proof. intros H now key Hin. apply H. apply elem_of_app. by left. Qed.

Lemma last_such {A} (Q : A → Prop) `{!∀ x, Decision (Q x)} (l : list A) :
  (∃ a x b, l = a ++ x :: b ∧ Q x ∧ ∀ y, y ∈ b → ¬ Q y) ∨ ∀ y, y ∈ l → ¬ Q y.
Proof.
  induction l as [|z l IH]; [right; intros y Hy; by apply elem_of_nil in Hy|].
  destruct IH as [(a & x & b & -> & Hx & Hb)|IH]; [left; by exists (z :: a), x, b|].
  destruct (decide (Q z)) as [Hz|Hz]; [left; by exists [], z, l|]. right. intros y [->|Hy]%elem_of_cons; [done|by apply IH].
Qed.

Section down.
  Context (ff : f64 → string) (d : Z) (P : nat → proc) (zone : N) (tr1 tr2 : list sev) (ops1 ops2 : list hop).
  Context (Hff : float_codec ff) (H64 : in_int64 d) (Hd : 0 < d) (HP : procs_ok d P (tr1 ++ tr2)).
  Context (HS1 : sys ff d P zone tr1 ops1) (HS2 : sys ff d P zone (tr1 ++ tr2) ops2).

  Lemma take_same i k : SRecv i k ∈ tr1 → take (S k) (hist i (tr1 ++ tr2)) = take (S k) (hist i tr1).
  Proof. intros H. apply (sys_recv_hist _ _ _ _ _ _ _ _ HS1) in H. rewrite hist_app. apply take_app_le. lia. Qed.
  Lemma heard_later i s k : in_order (tr1 ++ tr2) → heard d P tr1 i s k → ∃ k', heard d P (tr1 ++ tr2) i s k' ∧ (k ≤ k')%nat.
  Proof.
    intros Ho (a & b & Htr & Hk & Hb).
    set (Q := λ e, match e with SRecv j k' => j = i ∧ s ∈ listed d (p_retain (P i)) (take (S k') (hist i (tr1 ++ tr2))) | _ => False end).
    assert (HQ : ∀ e, Decision (Q e)) by (intros []; apply _).
    destruct (last_such Q tr2) as [(a2 & x & b2 & E & Hx & Hb2)|Hn].
    - destruct x as [|j k'| | |]; try done. destruct Hx as [-> Hx]. exists k'. split.
      + exists (tr1 ++ a2), b2. split; [rewrite E, <- app_assoc; done|]. split; [done|].
        intros k'' Hin Hl. by apply (Hb2 _ Hin).
      + apply (Ho i a k (b ++ tr2)); [rewrite Htr, <- app_assoc; done|]. apply elem_of_app. right. rewrite E.
        apply elem_of_app. right. left.
    - exists k. split; [|lia]. exists a, (b ++ tr2). split; [rewrite Htr, <- app_assoc; done|]. split.
      + cbv beta in Hk |- *. rewrite take_same; [done|]. rewrite Htr. apply elem_of_app. right. left.
      + intros k' [Hin|Hin]%elem_of_app Hl.
        * cbv beta in Hl. rewrite take_same in Hl; [|rewrite Htr; apply elem_of_app; right; by right]. by apply (Hb k').
        * by apply (Hn _ Hin).
  Qed.

  Lemma system_never_down hosts o1 o2 os1 os2 s st1 st2 p1 p2 c :
    ops1 = os1 ++ [HRecalc o1] → ops2 = os2 ++ [HRecalc o2] →
    hrun (hd_init hosts) ops1 (Ok st1) → hrun (hd_init hosts) ops2 (Ok st2) →
    kept d s (tr1 ++ tr2) → in_order (tr1 ++ tr2) → few_in_all d s (tr1 ++ tr2) → counting c →
    p1 ∈ hd_pub st1 → pa_time p1 = (s, zone) → p2 ∈ hd_pub st2 → pa_time p2 = (s, zone) →
    ctr_val c (pa_ia p1) ≤ ctr_val c (pa_ia p2).
  Proof.
    intros E1 E2 Hr1 Hr2 Hkept Hord Hfew Hc Hp1 Ht1 Hp2 Ht2. rewrite E1 in Hr1. rewrite E2 in Hr2.
    assert (HS1' := HS1). assert (HS2' := HS2). rewrite E1 in HS1'. rewrite E2 in HS2'.
    destruct (system_published ff d P zone tr1 Hff H64 Hd (procs_ok_prefix _ _ _ _ HP) hosts os1 o1 s st1 p1 HS1' Hr1 (kept_prefix _ _ _ _ Hkept) Hp1 Ht1) as (l1 & Hn1 & Hl1 & Hv1).
    destruct (system_published ff d P zone (tr1 ++ tr2) Hff H64 Hd HP hosts os2 o2 s st2 p2 HS2' Hr2 Hkept Hp2 Ht2) as (l2 & Hn2 & Hl2 & Hv2).
    rewrite Hv1, Hv2.
    set (f := λ ik : nat * nat, tally c (cmds_in d s (take ik.2 (hist ik.1 tr1)))).
    set (g := λ ik : nat * nat, tally c (cmds_in d s (take ik.2 (hist ik.1 (tr1 ++ tr2))))).
    assert (Hin2 : ∀ i k, (i, k) ∈ l1 → SRecv i k ∈ tr1).
    { intros i k H. apply Hl1 in H as (a & b & -> & _). apply elem_of_app. right. left. }
    assert (Hle : zsum (map f l1) ≤ zsum (map g l2)).
    { apply zsum_dominated; [done| |intros x _; apply (tally_app c _ [] Hc)].
      intros i k Hin. pose proof (Hin2 _ _ Hin) as Hrec. apply Hl1 in Hin.
      destruct (heard_later i s k Hord Hin) as (k' & Hh & Hkk). exists k'. split; [by apply Hl2|]. unfold f, g. cbn [fst snd].
      apply (sys_recv_hist _ _ _ _ _ _ _ _ HS1) in Hrec.
      assert (E : take k (hist i tr1) = take k (hist i (tr1 ++ tr2))) by (rewrite hist_app, take_app_le; [done|lia]).
      rewrite E. destruct (Nat.le_exists_sub k k' Hkk) as (m & -> & _).
      replace (take (m + k) (hist i (tr1 ++ tr2))) with (take k (hist i (tr1 ++ tr2)) ++ take m (drop k (hist i (tr1 ++ tr2)))).
      - unfold cmds_in. rewrite omap_app. apply tally_app. exact Hc.
      - rewrite (Nat.add_comm m k). by rewrite take_take_drop. }
    assert (Hlt : zsum (map g l2) < 2 ^ 63).
    { eapply Z.le_lt_trans; [|apply (Hfew (map fst l2)); exact Hn2].
      rewrite map_map. apply zsum_le. intros [i k] _. unfold g. cbn [fst snd].
      etrans; [apply tally_len; exact Hc|]. apply inj_le. rewrite <- (take_drop k (hist i (tr1 ++ tr2))) at 2.
      apply omap_len_app. }
    assert (H0 : 0 ≤ zsum (map f l1)) by (apply zsum_nonneg; intros x _; apply (tally_app c _ [] Hc)).
    rewrite !w64_id; [exact Hle|split; lia|split; lia].
  Qed.
End down.
