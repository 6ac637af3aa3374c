(** * Proofs about the contents of one interval *)
From Verif Require Import MAgg SAgg PAgg.

(** ** int64 *)
Lemma w64_mod z : w64 z `mod` 2 ^ 64 = z `mod` 2 ^ 64.
Proof.
  unfold w64. rewrite Zminus_mod_idemp_l.
  f_equal. lia.
Qed.

Lemma w64_eq_iff a b : w64 a = w64 b ↔ a `mod` 2 ^ 64 = b `mod` 2 ^ 64.
Proof.
  split.
  - intros H. rewrite <- (w64_mod a), <- (w64_mod b), H. done.
  - intros H. unfold w64. rewrite <- (Zplus_mod_idemp_l a), <- (Zplus_mod_idemp_l b), H. done.
Qed.

Lemma w64_add_l a b : w64 (w64 a + b) = w64 (a + b).
Proof. apply w64_eq_iff. rewrite <- Zplus_mod_idemp_l, w64_mod, Zplus_mod_idemp_l. done. Qed.
Lemma w64_add_r a b : w64 (a + w64 b) = w64 (a + b).
Proof. rewrite Z.add_comm, w64_add_l. f_equal. lia. Qed.
Lemma w64_w64 a : w64 (w64 a) = w64 a.
Proof. apply w64_eq_iff, w64_mod. Qed.
Lemma w64_id z : in_int64 z → w64 z = z.
Proof. intros H. unfold w64, in_int64 in *. rewrite Z.mod_small; lia. Qed.
Lemma w64_range z : in_int64 (w64 z).
Proof.
  unfold w64, in_int64. pose proof (Z.mod_pos_bound (z + 2 ^ 63) (2 ^ 64)). lia.
Qed.
Lemma w64_eq_1 n : 0 ≤ n ≤ 2 ^ 64 → w64 n = 1 ↔ n = 1.
Proof.
  intros Hn. split; [|intros ->; done].
  change 1 with (w64 1) at 1. rewrite w64_eq_iff.
  change (1 `mod` 2 ^ 64) with 1. intros H.
  destruct (decide (n = 2 ^ 64)) as [->|]; [discriminate|].
  rewrite Z.mod_small in H; lia.
Qed.

(** ** projections of the command loop *)
Definition am_apply (m : amaps) (c : cmd) : amaps :=
  match c with
  | CEvent _ e => am_inc_event m e
  | CEventErr _ e x => am_add_err m e x
  | CTiming _ e n => am_add_timing m e n
  | CGauge _ e v => am_set_gauge m e v
  | CComplete _ _ _ => m
  end.

Definition job_apply (j : jobagg) (c : cmd) : jobagg :=
  match c with
  | CComplete _ st n => job_ingest j st n
  | _ => job_on_maps (λ m, am_apply m c) j
  end.

Definition am_of (l : list cmd) : amaps := fold_left am_apply l amaps0.
Definition job_of (l : list cmd) : jobagg := fold_left job_apply l job0.

Lemma am_of_snoc l c : am_of (l ++ [c]) = am_apply (am_of l) c.
Proof. unfold am_of. by rewrite fold_left_app. Qed.
Lemma job_of_snoc l c : job_of (l ++ [c]) = job_apply (job_of l) c.
Proof. unfold job_of. by rewrite fold_left_app. Qed.
Lemma ia_of_snoc s l c : ia_of s (l ++ [c]) = ia_apply (ia_of s l) c.
Proof. unfold ia_of. by rewrite fold_left_app. Qed.

Lemma ia_apply_maps a c : ia_maps (ia_apply a c) = am_apply (ia_maps a) c.
Proof. by destruct c. Qed.
Lemma ia_apply_serial a c : ia_serial (ia_apply a c) = w64 (ia_serial a + 1).
Proof. by destruct c. Qed.
Lemma ia_apply_jobs a c :
  ia_jobs (ia_apply a c) = <[cmd_job c := job_apply (mget (ia_jobs a) (cmd_job c) job0) c]> (ia_jobs a).
Proof. by destruct c. Qed.

Lemma ia_of_maps s l : ia_maps (ia_of s l) = am_of l.
Proof.
  induction l as [|c l IH] using rev_ind; [done|].
  by rewrite ia_of_snoc, am_of_snoc, ia_apply_maps, IH.
Qed.

Lemma ia_of_serial s l : ia_serial (ia_of s l) = i64 (length l).
Proof.
  induction l as [|c l IH] using rev_ind; [done|].
  rewrite ia_of_snoc, ia_apply_serial, IH. unfold i64. rewrite w64_add_l.
  rewrite app_length. simpl. f_equal. lia.
Qed.

Lemma of_job_snoc j l c :
  of_job j (l ++ [c]) = if decide (cmd_job c = j) then of_job j l ++ [c] else of_job j l.
Proof.
  unfold of_job. rewrite filter_app. rewrite filter_cons, filter_nil.
  destruct (decide (cmd_job c = j)); [done|by rewrite app_nil_r].
Qed.

Lemma ia_of_jobs s l j :
  ia_jobs (ia_of s l) !! j =
    match of_job j l with [] => None | _ => Some (job_of (of_job j l)) end.
Proof.
  induction l as [|c l IH] using rev_ind; [done|].
  rewrite ia_of_snoc, ia_apply_jobs, of_job_snoc.
  destruct (decide (cmd_job c = j)) as [<-|Hne].
  - rewrite lookup_insert, job_of_snoc.
    destruct (of_job (cmd_job c) l ++ [c]) eqn:He; [by destruct (of_job (cmd_job c) l)|].
    do 2 f_equal. unfold mget. rewrite IH.
    destruct (of_job (cmd_job c) l); done.
  - rewrite lookup_insert_ne by done. apply IH.
Qed.

Lemma job_of_maps l : j_maps (job_of l) = am_of l.
Proof.
  induction l as [|c l IH] using rev_ind; [done|].
  rewrite job_of_snoc, am_of_snoc, <- IH. destruct c; simpl; try done.
  unfold job_ingest. repeat case_match; done.
Qed.

(** ** events *)
Lemma am_of_events l e : am_events (am_of l) !! e = counter_entry (length (events_of e l)).
Proof.
  induction l as [|c l IH] using rev_ind; [done|].
  rewrite am_of_snoc. unfold events_of. rewrite omap_app. fold (events_of e l).
  destruct c as [j e'| | | |]; simpl; rewrite ?app_nil_r; try done.
  rewrite app_length. case_bool_decide as He; simpl.
  - subst. rewrite lookup_insert. unfold mget. rewrite IH. unfold counter_entry.
    destruct (decide (length (events_of e' l) = 0%nat)) as [Hz|Hz].
    + rewrite Hz. rewrite decide_False by lia. done.
    + rewrite decide_False by lia. simpl. unfold i64. rewrite w64_add_l. do 2 f_equal. lia.
  - rewrite Nat.add_0_r. rewrite lookup_insert_ne by done. apply IH.
Qed.

(** ** timers *)
Definition timer_of (l : list Z) : timer := fold_left timer_ingest l timer0.

Lemma timer_of_snoc l n : timer_of (l ++ [n]) = timer_ingest (timer_of l) n.
Proof. unfold timer_of. by rewrite fold_left_app. Qed.

Lemma am_of_timers l e :
  am_timers (am_of l) !! e =
    match timings_of e l with [] => None | _ => Some (timer_of (timings_of e l)) end.
Proof.
  induction l as [|c l IH] using rev_ind; [done|].
  rewrite am_of_snoc. unfold timings_of. rewrite omap_app. fold (timings_of e l).
  destruct c as [| |j e' n| |]; simpl; rewrite ?app_nil_r; try done.
  case_bool_decide as He; simpl.
  - subst. rewrite lookup_insert. rewrite timer_of_snoc. unfold mget. rewrite IH.
    destruct (timings_of e' l); done.
  - rewrite app_nil_r. rewrite lookup_insert_ne by done. apply IH.
Qed.

Lemma timer_of_count l : t_count (timer_of l) = i64 (length l).
Proof.
  induction l as [|n l IH] using rev_ind; [done|].
  rewrite timer_of_snoc. simpl. rewrite IH. unfold i64. rewrite w64_add_l, app_length.
  simpl. f_equal. lia.
Qed.

Lemma zsum_app l1 l2 : zsum (l1 ++ l2) = zsum l1 + zsum l2.
Proof. induction l1; simpl; [done|]. rewrite IHl1. lia. Qed.

Lemma timer_of_sum l : t_sum (timer_of l) = w64 (zsum l).
Proof.
  induction l as [|n l IH] using rev_ind; [done|].
  rewrite timer_of_snoc. simpl. rewrite IH. rewrite w64_add_l, zsum_app.
  simpl. f_equal. lia.
Qed.

Lemma timer_of_ss l : t_ss (timer_of l) = sum_squares l.
Proof.
  induction l as [|n l IH] using rev_ind; [done|].
  rewrite timer_of_snoc. unfold sum_squares. rewrite fold_left_app. simpl.
  fold (sum_squares l). by rewrite <- IH.
Qed.

Lemma timer_of_minmax l :
  l ≠ [] → Z.of_nat (length l) ≤ 2 ^ 64 →
  is_min (t_min (timer_of l)) l ∧ is_max (t_max (timer_of l)) l.
Proof.
  induction l as [|n l IH] using rev_ind; intros Hne Hlen; [done|].
  rewrite app_length in Hlen. simpl in Hlen.
  rewrite timer_of_snoc. unfold timer_ingest. cbn [t_min t_max].
  rewrite timer_of_count. unfold i64. rewrite w64_add_l.
  destruct (decide (l = [])) as [->|Hl].
  - simpl. split; split; try (by left);
      intros x Hx%elem_of_list_singleton; lia.
  - destruct IH as [[Hmi Hmi'] [Hma Hma']]; [done|lia|].
    destruct (Z.eqb_spec (w64 (Z.of_nat (length l) + 1)) 1) as [He|He].
    + rewrite w64_eq_1 in He by lia. destruct l; [done|simpl in He; lia].
    + simpl orb. split; split.
      * destruct (Z.ltb_spec n (t_min (timer_of l))); apply elem_of_app; [right; by left|by left].
      * intros x Hx. apply elem_of_app in Hx as [Hx|Hx%elem_of_list_singleton].
        -- specialize (Hmi' x Hx). destruct (Z.ltb_spec n (t_min (timer_of l))); lia.
        -- destruct (Z.ltb_spec n (t_min (timer_of l))); lia.
      * destruct (Z.ltb_spec (t_max (timer_of l)) n); apply elem_of_app; [right; by left|by left].
      * intros x Hx. apply elem_of_app in Hx as [Hx|Hx%elem_of_list_singleton].
        -- specialize (Hma' x Hx). destruct (Z.ltb_spec (t_max (timer_of l)) n); lia.
        -- destruct (Z.ltb_spec (t_max (timer_of l)) n); lia.
Qed.

Lemma timer_of_summarises l :
  l ≠ [] → Z.of_nat (length l) ≤ 2 ^ 64 → summarises l (timer_of l).
Proof.
  intros Hne Hl. destruct (timer_of_minmax l Hne Hl). split; try done.
  - apply timer_of_count.
  - apply timer_of_sum.
  - apply timer_of_ss.
Qed.

(** ** gauges *)
Lemma am_of_gauges l e : am_gauges (am_of l) !! e = last (gauges_of e l).
Proof.
  induction l as [|c l IH] using rev_ind; [done|].
  rewrite am_of_snoc. unfold gauges_of. rewrite omap_app. fold (gauges_of e l).
  destruct c as [| | |j e' v|]; simpl; rewrite ?app_nil_r; try done.
  case_bool_decide as He; simpl.
  - subst. by rewrite lookup_insert, last_snoc.
  - by rewrite app_nil_r, lookup_insert_ne.
Qed.

(** ** errors *)
Definition errc_of (l : list (option err)) : errc := fold_left increment_and_add_error l errc0.

Lemma errc_of_snoc l e : errc_of (l ++ [e]) = increment_and_add_error (errc_of l) e.
Proof. unfold errc_of. by rewrite fold_left_app. Qed.

Lemma am_of_errs l e :
  am_errs (am_of l) !! e =
    match errors_of e l with [] => None | _ => Some (errc_of (errors_of e l)) end.
Proof.
  induction l as [|c l IH] using rev_ind; [done|].
  rewrite am_of_snoc. unfold errors_of. rewrite omap_app. fold (errors_of e l).
  destruct c as [|j e' x| | |]; simpl; rewrite ?app_nil_r; try done.
  case_bool_decide as He; simpl.
  - subst. rewrite lookup_insert. rewrite errc_of_snoc. unfold mget. rewrite IH.
    destruct (errors_of e' l); done.
  - rewrite app_nil_r. rewrite lookup_insert_ne by done. apply IH.
Qed.

Lemma add_error_count ec e : ec_count (add_error ec e) = ec_count ec.
Proof. unfold add_error. repeat case_match; done. Qed.

Lemma errc_of_count l : ec_count (errc_of l) = i64 (length l).
Proof.
  induction l as [|n l IH] using rev_ind; [done|].
  rewrite errc_of_snoc. unfold increment_and_add_error. rewrite add_error_count. cbn [ec_count].
  rewrite IH. unfold i64. rewrite w64_add_l, app_length. simpl. f_equal. lia.
Qed.

(** The ring: slot k mod 5 holds the k-th distinct error for the last five k. *)
Record ring (d : list err) (ec : errc) : Prop := {
  ring_len : length (ec_samples ec) = 5%nat;
  ring_idx : ec_index ec = Nat.modulo (length d - 1) 5;
  ring_val : ∀ k x, d !! k = Some x → (length d ≤ k + 5)%nat →
                    ec_samples ec !! (Nat.modulo k 5) = Some (Some x);
  ring_nil : ∀ i, (length d ≤ i < 5)%nat → ec_samples ec !! i = Some None }.

Lemma ring0 n : ring [] (Errc n (ec_samples errc0) 0).
Proof.
  split; [done|done|done|]. simpl. intros i Hi.
  do 5 (destruct i as [|i]; [done|]). lia.
Qed.

Lemma ring_count d ec n : ring d ec → ring d (Errc n (ec_samples ec) (ec_index ec)).
Proof. by intros [? ? ? ?]. Qed.

Lemma mod5_ne a b : (a < b < a + 5)%nat → Nat.modulo a 5 ≠ Nat.modulo b 5.
Proof.
  intros H He. pose proof (Nat.div_mod a 5). pose proof (Nat.div_mod b 5). lia.
Qed.

Lemma ring_step d ec x :
  ring d ec → ring (if decide (last d = Some x) then d else d ++ [x]) (add_error ec (Some x)).
Proof.
  intros [Hlen Hidx Hval Hnil]. unfold add_error.
  destruct (last d) as [y|] eqn:Hl.
  - assert (d ≠ []) as Hd by (intros ->; done).
    assert (0 < length d)%nat by (destruct d; simpl in *; [done|lia]).
    assert (d !! (length d - 1)%nat = Some y) as Hy.
    { rewrite last_lookup in Hl. by replace (length d - 1)%nat with (pred (length d)) by lia. }
    rewrite Hidx at 1. rewrite (Hval _ _ Hy) by lia.
    case_bool_decide as Hyx.
    + rewrite decide_True by congruence. by split.
    + rewrite decide_False by congruence. rewrite Hlen, Hidx.
      rewrite (Nat.add_comm _ 1), Nat.add_mod_idemp_r by lia.
      replace (1 + (length d - 1))%nat with (length d) by lia.
      split; cbn [ec_samples ec_index].
      * by rewrite insert_length.
      * rewrite app_length. cbn [length]. f_equal. lia.
      * rewrite app_length. cbn [length]. intros k z Hk Hlek.
        assert (k < length d + 1)%nat by (apply lookup_lt_Some in Hk; rewrite app_length in Hk; simpl in Hk; lia).
        destruct (decide (k = length d)) as [->|Hkd].
        -- rewrite list_lookup_insert by (rewrite Hlen; apply Nat.mod_upper_bound; lia).
           rewrite lookup_app_r, Nat.sub_diag in Hk by lia. simpl in Hk. by inversion Hk.
        -- rewrite list_lookup_insert_ne by (apply not_eq_sym, mod5_ne; lia).
           apply Hval; [|lia]. rewrite lookup_app_l in Hk by lia. done.
      * rewrite app_length. cbn [length]. intros i Hi.
        rewrite list_lookup_insert_ne; [apply Hnil; lia|].
        rewrite Nat.mod_small by lia. lia.
  - apply last_None in Hl as ->. rewrite decide_False by done. simpl app.
    simpl in Hidx. rewrite Hidx. rewrite (Hnil 0%nat) by (simpl; lia).
    split; cbn [ec_samples ec_index].
    + by rewrite insert_length.
    + done.
    + simpl. intros k z Hk _. destruct k as [|k]; [|done]. simpl in *. inversion Hk; subst.
      rewrite list_lookup_insert by lia. done.
    + simpl. intros i Hi. rewrite list_lookup_insert_ne by lia. apply Hnil. simpl; lia.
Qed.

Lemma errc_of_ring xs : ring (squash xs) (errc_of (map Some xs)).
Proof.
  induction xs as [|x xs IH] using rev_ind; [apply (ring0 0)|].
  rewrite map_app. simpl. rewrite errc_of_snoc, squash_snoc.
  unfold increment_and_add_error.
  apply (ring_count _ _ (w64 (ec_count (errc_of (map Some xs)) + 1))) in IH.
  apply (ring_step _ _ x) in IH. rewrite squash_last in IH. done.
Qed.

Ltac rot := first
  [ reflexivity
  | match goal with |- ?x :: ?l ≡ₚ _ => change (x :: l) with ([x] ++ l);
      rewrite (Permutation_app_comm [x] l); cbn [app]; rot end ].

(** The samples of a ring are the last five of the list. *)
Lemma ring_samples d ec : ring d ec → get_error_samples ec ≡ₚ lastn 5 d.
Proof.
  intros [Hlen _ Hval Hnil]. unfold get_error_samples, lastn.
  destruct ec as [n s ix]. cbn [ec_samples] in *. clear ix n.
  do 5 (destruct s as [|? s]; [done|]). destruct s; [|done]. clear Hlen.
  assert (∀ k x, d !! k = Some x → (length d ≤ k + 5)%nat →
     [o; o0; o1; o2; o3] !! (Nat.modulo k 5) = Some (Some x)) as Hv by done. clear Hval.
  destruct (decide (length d < 5)%nat) as [Hs|Hs].
  - destruct d as [|a0 [|a1 [|a2 [|a3 [|a4 d]]]]]; [..|simpl in Hs; lia].
    all: cbn [length] in *.
    all: try (specialize (Hnil 0%nat ltac:(lia)) as H0; simpl in H0; inversion H0; subst).
    all: try (specialize (Hnil 1%nat ltac:(lia)) as H1; simpl in H1; inversion H1; subst).
    all: try (specialize (Hnil 2%nat ltac:(lia)) as H2; simpl in H2; inversion H2; subst).
    all: try (specialize (Hnil 3%nat ltac:(lia)) as H3; simpl in H3; inversion H3; subst).
    all: try (specialize (Hnil 4%nat ltac:(lia)) as H4; simpl in H4; inversion H4; subst).
    all: try (specialize (Hv 0%nat _ eq_refl ltac:(simpl; lia)) as V0; simpl in V0; inversion V0; subst).
    all: try (specialize (Hv 1%nat _ eq_refl ltac:(simpl; lia)) as V1; simpl in V1; inversion V1; subst).
    all: try (specialize (Hv 2%nat _ eq_refl ltac:(simpl; lia)) as V2; simpl in V2; inversion V2; subst).
    all: try (specialize (Hv 3%nat _ eq_refl ltac:(simpl; lia)) as V3; simpl in V3; inversion V3; subst).
    all: done.
  - rewrite <- (take_drop (length d - 5) d) in Hv.
    set (p := take (length d - 5) d) in *. set (q := drop (length d - 5) d) in *.
    assert (length q = 5%nat) as Hq by (unfold q; rewrite drop_length; lia).
    assert (length d = length p + 5)%nat as Hpd by (unfold p; rewrite take_length; lia).
    clearbody p q.
    assert (∀ i x, q !! i = Some x → [o; o0; o1; o2; o3] !! (Nat.modulo (length p + i) 5) = Some (Some x)) as Hw.
    { intros i x Hi. apply Hv; [|rewrite app_length; lia]. rewrite lookup_app_r by lia.
      by replace (length p + i - length p)%nat with i by lia. }
    clear Hv Hnil Hs Hpd. revert Hw. generalize (length p) as m. intros m Hw.
    do 5 (destruct q as [|? q]; [done|]). destruct q; [|done].
    assert (∀ i x, [e; e0; e1; e2; e3] !! i = Some x → [o; o0; o1; o2; o3] !! (Nat.modulo (Nat.modulo m 5 + i) 5) = Some (Some x)) as Hu.
    { intros i x Hi. rewrite Nat.add_mod_idemp_l by lia. by apply Hw. }
    clear Hw. assert (Nat.modulo m 5 < 5)%nat as Hm by (apply Nat.mod_upper_bound; lia).
    revert Hm Hu. generalize (Nat.modulo m 5). clear.
    intros m Hm Hu.
    pose proof (Hu 0%nat _ eq_refl) as V0. pose proof (Hu 1%nat _ eq_refl) as V1.
    pose proof (Hu 2%nat _ eq_refl) as V2. pose proof (Hu 3%nat _ eq_refl) as V3.
    pose proof (Hu 4%nat _ eq_refl) as V4. clear Hu.
    do 5 (destruct m as [|m]; [simpl in *; simplify_eq; simpl; rot|]). lia.
Qed.
