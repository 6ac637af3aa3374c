(** * Proofs about Merge *)
From Verif Require Import MMerge SMerge PAgg PContent PContent2.

(** ** loops *)
Section loop.
  Context {V : Type} (f : V → V → V).
  Definition mbody (k : string) (v : V) (m : gmap string V) : gmap string V :=
    match m !! k with Some x => <[k := f x v]> m | None => <[k := v]> m end.

  Lemma merge_loop_lookup l into k :
    NoDup l.*1 →
    range l mbody into !! k =
      match into !! k, list_to_map (M := gmap string V) l !! k with
      | Some a, Some b => Some (f a b)
      | Some a, None => Some a
      | None, b => b
      end.
  Proof using Type.
    unfold range. revert into. induction l as [|[k' v] l IH]; intros into Hnd; simpl.
    - by destruct (into !! k).
    - apply NoDup_cons in Hnd as [Hni Hnd]. rewrite IH by done. simpl in Hni.
      unfold mbody. destruct (decide (k = k')) as [->|Hne].
      + rewrite lookup_insert.
        replace (list_to_map (M := gmap string V) l !! k') with (@None V)
          by (symmetry; by apply not_elem_of_list_to_map).
        destruct (into !! k') eqn:Hin; rewrite lookup_insert; done.
      + rewrite lookup_insert_ne by done.
        destruct (into !! k') eqn:Hin; rewrite lookup_insert_ne by done; done.
  Qed.

  Lemma merge_loop l into m :
    enumerates l m →
    range l mbody into = union_with (λ a b, Some (f a b)) into m.
  Proof using Type.
    intros He. apply map_eq. intros k. rewrite merge_loop_lookup.
    - rewrite lookup_union_with.
      assert (list_to_map (M := gmap string V) l = m) as ->.
      { unfold enumerates in He. rewrite <- (list_to_map_to_list m).
        apply list_to_map_proper; [|done].
        rewrite He. apply NoDup_fst_map_to_list. }
      destruct (into !! k), (m !! k); done.
    - unfold enumerates in He. rewrite He. apply NoDup_fst_map_to_list.
  Qed.
End loop.

Lemma enumerates_self {V} (m : gmap string V) : enumerates (map_to_list m) m.
Proof. unfold enumerates. done. Qed.

Lemma merge_timers_char l into m :
  enumerates l m → merge_timers_loop l into = union_with (λ a b, Some (timer_merge a b)) into m.
Proof. apply (merge_loop timer_merge). Qed.
Lemma merge_errs_char l into m :
  enumerates l m → merge_errs_loop l into = union_with (λ a b, Some (errc_merge a b)) into m.
Proof. apply (merge_loop errc_merge). Qed.
Lemma merge_jobs_char l into m :
  enumerates l m → merge_jobs_loop l into = union_with (λ a b, Some (job_merge a b)) into m.
Proof. apply (merge_loop job_merge). Qed.

Lemma merge_gauges_char l into m :
  enumerates l m → merge_gauges_loop l into = m ∪ into.
Proof.
  intros He. unfold merge_gauges_loop.
  replace (range l (λ k v m0, <[k := v]> m0) into) with (range l (mbody (λ a b : f64, b)) into).
  - rewrite (merge_loop (λ a b : f64, b) l into m He). apply map_eq. intros k.
    rewrite lookup_union_with, lookup_union. destruct (into !! k), (m !! k); done.
  - unfold range. clear He. revert into. induction l as [|[k v] l IH]; intros into; simpl; [done|].
    rewrite IH. unfold mbody. destruct (into !! k); done.
Qed.

(** events: the += loop *)
Lemma merge_events_lookup l into m k :
  enumerates l m →
  merge_events_loop l into !! k =
    match into !! k, m !! k with
    | Some a, Some b => Some (w64 (a + b))
    | Some a, None => Some a
    | None, Some b => Some (w64 b)
    | None, None => None
    end.
Proof.
  intros He.
  assert (NoDup l.*1) as Hnd by (unfold enumerates in He; rewrite He; apply NoDup_fst_map_to_list).
  assert (m !! k = list_to_map (M := gmap string Z) l !! k) as ->.
  { unfold enumerates in He. rewrite <- (list_to_map_to_list m).
    symmetry. f_equal. apply list_to_map_proper; done. }
  clear He m. unfold merge_events_loop, range. revert into.
  induction l as [|[k' v] l IH]; intros into; simpl.
  - by destruct (into !! k).
  - apply NoDup_cons in Hnd as [Hni Hnd]. rewrite IH by done. simpl in Hni.
    unfold mget. destruct (decide (k = k')) as [->|Hne].
    + rewrite !lookup_insert.
      replace (list_to_map (M := gmap string Z) l !! k') with (@None Z)
        by (symmetry; by apply not_elem_of_list_to_map).
      by destruct (into !! k').
    + by rewrite !lookup_insert_ne by done.
Qed.

(** with int64 values the loop is again a union *)
Lemma merge_events_char l into m :
  enumerates l m → (∀ k v, m !! k = Some v → in_int64 v) →
  merge_events_loop l into = union_with (λ a b, Some (w64 (a + b))) into m.
Proof.
  intros He Hi. apply map_eq. intros k. rewrite (merge_events_lookup _ _ _ _ He), lookup_union_with.
  destruct (into !! k), (m !! k) eqn:Hm; try done. simpl. f_equal. apply w64_id. eauto.
Qed.

Lemma loops_order_independent {V} (l1 l2 : list (string * V)) m :
  enumerates l1 m → enumerates l2 m → l1 ≡ₚ l2.
Proof. unfold enumerates. intros -> ->. done. Qed.

(** ** errors: merging samples does not touch the count *)
Lemma errc_merge_count a b : ec_count (errc_merge a b) = w64 (ec_count a + ec_count b).
Proof.
  unfold errc_merge.
  assert (∀ l ec, ec_count (fold_left (λ acc e, match e with Some x => add_error acc (Some x) | None => acc end) l ec) = ec_count ec) as H.
  { induction l as [|e l IH]; intros ec; simpl; [done|]. rewrite IH.
    destruct e; [apply add_error_count|done]. }
  by rewrite H.
Qed.

(** ** C22 *)
Lemma am_merge_events a b e :
  int64_maps a → int64_maps b → ev (amaps_merge a b) e = w64 (ev a e + ev b e).
Proof.
  intros (Ha & _) (Hb & _). unfold ev, mget. simpl.
  rewrite (merge_events_lookup _ _ (am_events b)) by apply enumerates_self.
  destruct (am_events a !! e) eqn:Hx, (am_events b !! e) eqn:Hy; simpl; try done.
  rewrite Z.add_0_r, w64_id; eauto.
Qed.
Lemma am_merge_errs a b e :
  int64_maps a → int64_maps b → er (amaps_merge a b) e = w64 (er a e + er b e).
Proof.
  intros (_ & _ & Ha) (_ & _ & Hb). unfold er, mget. simpl.
  rewrite (merge_errs_char _ _ (am_errs b)) by apply enumerates_self.
  rewrite lookup_union_with.
  destruct (am_errs a !! e) eqn:Hx, (am_errs b !! e) eqn:Hy; simpl; try done.
  - apply errc_merge_count.
  - rewrite Z.add_0_r, w64_id; eauto.
  - rewrite w64_id; eauto.
Qed.
Lemma am_merge_timers a b e :
  int64_maps a → int64_maps b →
  t_count (tm (amaps_merge a b) e) = w64 (t_count (tm a e) + t_count (tm b e)) ∧
  t_sum (tm (amaps_merge a b) e) = w64 (t_sum (tm a e) + t_sum (tm b e)).
Proof.
  intros (_ & Ha & _) (_ & Hb & _). unfold tm, mget. simpl.
  rewrite (merge_timers_char _ _ (am_timers b)) by apply enumerates_self.
  rewrite lookup_union_with.
  destruct (am_timers a !! e) eqn:Hx, (am_timers b !! e) eqn:Hy; simpl; try done.
  - apply Ha in Hx as (H1 & H2 & _). rewrite !Z.add_0_r, !w64_id; done.
  - apply Hb in Hy as (H1 & H2 & _). rewrite !w64_id; done.
Qed.
Lemma am_merge_gauges a b e :
  am_gauges (amaps_merge a b) !! e =
    match am_gauges b !! e with Some v => Some v | None => am_gauges a !! e end.
Proof.
  simpl. rewrite (merge_gauges_char _ _ (am_gauges b)) by apply enumerates_self.
  rewrite lookup_union. destruct (am_gauges b !! e), (am_gauges a !! e); done.
Qed.
Lemma am_merge_keys a b :
  dom (am_events (amaps_merge a b)) = dom (am_events a) ∪ dom (am_events b) ∧
  dom (am_errs (amaps_merge a b)) = dom (am_errs a) ∪ dom (am_errs b) ∧
  dom (am_timers (amaps_merge a b)) = dom (am_timers a) ∪ dom (am_timers b) ∧
  dom (am_gauges (amaps_merge a b)) = dom (am_gauges a) ∪ dom (am_gauges b).
Proof.
  simpl.
  rewrite (merge_errs_char _ _ (am_errs b)), (merge_timers_char _ _ (am_timers b)),
    (merge_gauges_char _ _ (am_gauges b)) by apply enumerates_self.
  repeat split; apply set_eq; intros k; rewrite elem_of_union, !elem_of_dom; unfold is_Some.
  - rewrite (merge_events_lookup _ _ (am_events b)) by apply enumerates_self.
    destruct (am_events a !! k), (am_events b !! k); naive_solver.
  - rewrite lookup_union_with. destruct (am_errs a !! k), (am_errs b !! k); naive_solver.
  - rewrite lookup_union_with. destruct (am_timers a !! k), (am_timers b !! k); naive_solver.
  - rewrite lookup_union. destruct (am_gauges a !! k), (am_gauges b !! k); naive_solver.
Qed.
Lemma ia_merge_jobs a b j :
  ia_jobs (ia_merge a b) !! j =
    match ia_jobs a !! j, ia_jobs b !! j with
    | Some x, Some y => Some (job_merge x y)
    | Some x, None => Some x
    | None, y => y
    end.
Proof.
  simpl. rewrite (merge_jobs_char _ _ (ia_jobs b)) by apply enumerates_self.
  rewrite lookup_union_with. destruct (ia_jobs a !! j), (ia_jobs b !! j); done.
Qed.

(** ** view-level merge *)
Ltac peq := repeat match goal with |- (_, _) = (_, _) => f_equal end.
Section vmerge.
  Context {A : Type} (f : A → A → A).
  Definition um (m1 m2 : gmap string A) : gmap string A := union_with (λ a b, Some (f a b)) m1 m2.

  Lemma um_rcomm m1 m2 m3 :
    (∀ a b c, f (f a b) c = f (f a c) b) → (∀ a b, f a b = f b a) →
    um (um m1 m2) m3 = um (um m1 m3) m2.
  Proof using Type.
    intros Hr Hc. apply map_eq. intros k. unfold um. rewrite !lookup_union_with.
    destruct (m1 !! k), (m2 !! k), (m3 !! k); simpl; try done; f_equal; auto.
  Qed.
End vmerge.

Lemma fmap_um {A B} (g : A → B) f f' (m1 m2 : gmap string A) :
  (∀ a b, g (f a b) = f' (g a) (g b)) →
  g <$> um f m1 m2 = um f' (g <$> m1) (g <$> m2).
Proof.
  intros H. apply map_eq. intros k. unfold um. rewrite lookup_fmap, !lookup_union_with, !lookup_fmap.
  destruct (m1 !! k), (m2 !! k); simpl; try done. by rewrite H.
Qed.

Lemma fmap_um_P {A B} (g : A → B) f f' (P : A → Prop) (m1 m2 : gmap string A) :
  (∀ k a, m2 !! k = Some a → P a) →
  (∀ a b, P b → g (f a b) = f' (g a) (g b)) →
  g <$> um f m1 m2 = um f' (g <$> m1) (g <$> m2).
Proof.
  intros HP H. apply map_eq. intros k. unfold um. rewrite lookup_fmap, !lookup_union_with, !lookup_fmap.
  destruct (m1 !! k), (m2 !! k) eqn:H2; simpl; try done. rewrite H; eauto.
Qed.

Definition vt := (Z * Z * Z * Z)%type.
Definition vt_merge (a b : vt) : vt :=
  let '(c1, s1, m1, x1) := a in let '(c2, s2, m2, x2) := b in
  (w64 (c1 + c2), w64 (s1 + s2), Z.min m1 m2, Z.max x1 x2).
Definition vm := (gmap string Z * gmap string Z * gmap string vt)%type.
Definition vm_merge (a b : vm) : vm :=
  let '(e1, r1, t1) := a in let '(e2, r2, t2) := b in
  (um (λ x y, w64 (x + y)) e1 e2, um (λ x y, w64 (x + y)) r1 r2, um vt_merge t1 t2).
Definition vc := (Z * Z * Z * Z * Z)%type.
Definition vc_merge (a b : vc) : vc :=
  let '(a1, a2, a3, a4, a5) := a in let '(b1, b2, b3, b4, b5) := b in
  (w64 (a1 + b1), w64 (a2 + b2), w64 (a3 + b3), w64 (a4 + b4), w64 (a5 + b5)).
Definition vj := (vm * vt * vc)%type.
Definition vj_merge (a b : vj) : vj :=
  let '(m1, t1, c1) := a in let '(m2, t2, c2) := b in
  (vm_merge m1 m2, vt_merge t1 t2, vc_merge c1 c2).
Definition vi := (Z * Z * gmap string vj * vm)%type.
Definition vi_merge (a b : vi) : vi :=
  let '(s1, n1, j1, m1) := a in let '(_, _, j2, m2) := b in
  (s1, w64 (n1 + 1), um vj_merge j1 j2, vm_merge m1 m2).

Lemma w64_rcomm a b c : w64 (w64 (a + b) + c) = w64 (w64 (a + c) + b).
Proof. rewrite !w64_add_l. f_equal. lia. Qed.
Lemma w64_comm a b : w64 (a + b) = w64 (b + a).
Proof. f_equal. lia. Qed.

Lemma vt_rcomm a b c : vt_merge (vt_merge a b) c = vt_merge (vt_merge a c) b.
Proof.
  destruct a as [[[? ?] ?] ?], b as [[[? ?] ?] ?], c as [[[? ?] ?] ?]. simpl.
  peq; try apply w64_rcomm; lia.
Qed.
Lemma vt_comm a b : vt_merge a b = vt_merge b a.
Proof.
  destruct a as [[[? ?] ?] ?], b as [[[? ?] ?] ?]. simpl.
  peq; try apply w64_comm; lia.
Qed.
Lemma vm_rcomm a b c : vm_merge (vm_merge a b) c = vm_merge (vm_merge a c) b.
Proof.
  destruct a as [[? ?] ?], b as [[? ?] ?], c as [[? ?] ?]. simpl.
  peq; apply um_rcomm; intros; first [apply w64_rcomm|apply w64_comm|apply vt_rcomm|apply vt_comm].
Qed.
Lemma um_comm {A} (f : A → A → A) m1 m2 : (∀ a b, f a b = f b a) → um f m1 m2 = um f m2 m1.
Proof.
  intros H. apply map_eq. intros k. unfold um. rewrite !lookup_union_with.
  destruct (m1 !! k), (m2 !! k); simpl; try done. by rewrite H.
Qed.
Lemma vm_comm a b : vm_merge a b = vm_merge b a.
Proof.
  destruct a as [[? ?] ?], b as [[? ?] ?]. simpl.
  peq; apply um_comm; intros; first [apply w64_comm|apply vt_comm].
Qed.
Lemma vc_rcomm a b c : vc_merge (vc_merge a b) c = vc_merge (vc_merge a c) b.
Proof.
  destruct a as [[[[? ?] ?] ?] ?], b as [[[[? ?] ?] ?] ?], c as [[[[? ?] ?] ?] ?]. simpl.
  peq; apply w64_rcomm.
Qed.
Lemma vc_comm a b : vc_merge a b = vc_merge b a.
Proof.
  destruct a as [[[[? ?] ?] ?] ?], b as [[[[? ?] ?] ?] ?]. simpl. peq; try apply w64_comm; lia.
Qed.
Lemma vj_rcomm a b c : vj_merge (vj_merge a b) c = vj_merge (vj_merge a c) b.
Proof.
  destruct a as [[? ?] ?], b as [[? ?] ?], c as [[? ?] ?]. simpl.
  peq; [apply vm_rcomm|apply vt_rcomm|apply vc_rcomm].
Qed.
Lemma vj_comm a b : vj_merge a b = vj_merge b a.
Proof.
  destruct a as [[? ?] ?], b as [[? ?] ?]. simpl.
  peq; [apply vm_comm|apply vt_comm|apply vc_comm].
Qed.
Lemma vi_rcomm a b c : vi_merge (vi_merge a b) c = vi_merge (vi_merge a c) b.
Proof.
  destruct a as [[[? ?] ?] ?], b as [[[? ?] ?] ?], c as [[[? ?] ?] ?]. simpl.
  peq; [apply um_rcomm; [apply vj_rcomm|apply vj_comm]|apply vm_rcomm].
Qed.

Lemma view_timer_merge a b : view_timer (timer_merge a b) = vt_merge (view_timer a) (view_timer b).
Proof.
  unfold view_timer, timer_merge, vt_merge. cbn [t_count t_sum t_min t_max]. f_equal; [f_equal|].
  - destruct (Z.ltb_spec (t_min b) (t_min a)); lia.
  - destruct (Z.ltb_spec (t_max a) (t_max b)); lia.
Qed.

Lemma view_maps_merge a b :
  int64_maps b → view_maps (amaps_merge a b) = vm_merge (view_maps a) (view_maps b).
Proof.
  intros (He & _). unfold view_maps, vm_merge, amaps_merge. cbn [am_events am_errs am_timers].
  f_equal; [f_equal|].
  - rewrite (merge_events_char _ _ (am_events b)); [done|apply enumerates_self|done].
  - rewrite (merge_errs_char _ _ (am_errs b)) by apply enumerates_self.
    apply (fmap_um ec_count errc_merge). apply errc_merge_count.
  - rewrite (merge_timers_char _ _ (am_timers b)) by apply enumerates_self.
    apply (fmap_um view_timer timer_merge). apply view_timer_merge.
Qed.

Lemma view_job_merge a b : int64_job b → view_job (job_merge a b) = vj_merge (view_job a) (view_job b).
Proof.
  intros (Hm & _). unfold view_job, vj_merge. f_equal. f_equal.
  - by apply view_maps_merge.
  - apply view_timer_merge.
Qed.

Lemma view_ia_merge a b : int64_ia b → view_ia (ia_merge a b) = vi_merge (view_ia a) (view_ia b).
Proof.
  intros (_ & Hm & Hj). unfold view_ia, vi_merge, ia_merge. cbn [ia_start ia_serial ia_jobs ia_maps].
  f_equal; [f_equal|].
  - rewrite (merge_jobs_char _ _ (ia_jobs b)) by apply enumerates_self.
    apply (fmap_um_P view_job job_merge vj_merge int64_job); [done|].
    intros x y Hy. by apply view_job_merge.
  - by apply view_maps_merge.
Qed.

Lemma view_merge_all s l :
  Forall int64_ia l →
  view_ia (merge_all s l) = fold_left vi_merge (map view_ia l) (view_ia (new_ia s)).
Proof.
  unfold merge_all. generalize (new_ia s). induction l as [|b l IH]; intros a Hl; simpl; [done|].
  inversion Hl; subst. rewrite IH by done. by rewrite view_ia_merge.
Qed.

Lemma fold_left_perm {A B} (f : A → B → A) (l1 l2 : list B) a :
  (∀ a x y, f (f a x) y = f (f a y) x) → l1 ≡ₚ l2 → fold_left f l1 a = fold_left f l2 a.
Proof.
  intros Hf Hp. revert a. induction Hp; intros a; simpl.
  - done.
  - apply IHHp.
  - by rewrite Hf.
  - by rewrite IHHp1, IHHp2.
Qed.

Lemma thm_merge_order s l1 l2 :
  Forall int64_ia l1 → l1 ≡ₚ l2 → view_ia (merge_all s l1) = view_ia (merge_all s l2).
Proof.
  intros Hl Hp. assert (Forall int64_ia l2) by (by rewrite <- Hp).
  rewrite !view_merge_all by done. apply fold_left_perm; [apply vi_rcomm|].
  by rewrite Hp.
Qed.

(** The enumeration order of the Go maps does not matter either. *)
Lemma thm_range_order (a b : amaps) ja jb lt lg le lr lj :
  enumerates lt (am_timers b) → enumerates lg (am_gauges b) →
  enumerates le (am_events b) → enumerates lr (am_errs b) → enumerates lj jb →
  AMaps (merge_timers_loop lt (am_timers a)) (merge_gauges_loop lg (am_gauges a))
        (merge_events_loop le (am_events a)) (merge_errs_loop lr (am_errs a)) = amaps_merge a b ∧
  merge_jobs_loop lj ja = merge_jobs_loop (map_to_list jb) ja.
Proof.
  intros Ht Hg He Hr Hj. unfold amaps_merge.
  rewrite (merge_timers_char _ _ _ Ht), (merge_gauges_char _ _ _ Hg), (merge_errs_char _ _ _ Hr),
    (merge_jobs_char _ _ _ Hj).
  rewrite (merge_timers_char _ _ (am_timers b)), (merge_gauges_char _ _ (am_gauges b)),
    (merge_errs_char _ _ (am_errs b)), (merge_jobs_char _ _ jb) by apply enumerates_self.
  split; [|done]. f_equal. apply map_eq. intros k.
  rewrite (merge_events_lookup _ _ _ _ He).
  by rewrite (merge_events_lookup _ _ (am_events b)) by apply enumerates_self.
Qed.
