(** * Concrete executions of healthd's aggregation loop *)
From stdpp Require Import sorting.
From Verif Require Import SHealthd PHealthd PHealthd2 PHealthd3 PHealthd4.

(** an order Go may choose *)
#[global] Instance le_start_dec : RelDecision le_start.
Proof. intros p q. unfold le_start. apply _. Defined.
Definition the_order (s : hd) : rorder :=
  ROrder (elements (hd_need s)) (λ _, map_to_list (hd_host s)) (merge_sort le_start).
Lemma le_start_sorter : is_sorter (merge_sort le_start).
Proof.
  intros l. split; [apply merge_sort_Permutation|].
  assert (StronglySorted le_start (merge_sort le_start l)) as H; [|exact H].
  apply StronglySorted_merge_sort.
  - intros a b c. unfold le_start. lia.
  - intros a b. unfold le_start. lia.
Qed.
Lemma the_order_ok s : rorder_ok s (the_order s).
Proof. split; [done|]. split; [done|]. apply le_start_sorter. Qed.

(** executable runs *)
Inductive eop := EResp (r : resp) | EPurge (now : Z) | ERecalc.
Definition eop_hop (s : hd) (e : eop) : hop :=
  match e with
  | EResp r => HResp r 1000 1001
  | EPurge now => HPurge (λ _, now)
  | ERecalc => HRecalc (the_order s)
  end.
Fixpoint erun (s : hd) (l : list eop) : list hop * res hd :=
  match l with
  | [] => ([], Ok s)
  | e :: l =>
      let op := eop_hop s e in
      match hstep s op with
      | Ok s' => let x := erun s' l in (op :: x.1, x.2)
      | Crash w => ([op], Crash w)
      end
  end.
Lemma erun_sound l : ∀ s, hrun s (erun s l).1 (erun s l).2.
Proof.
  induction l as [|e l IH]; intros s; cbn [erun]; [constructor|].
  assert (hop_ok s (eop_hop s e)) as Ho by (destruct e; cbn; [done|done|apply the_order_ok]).
  destruct (hstep s (eop_hop s e)) as [s'|w] eqn:E; cbn.
  - by econstructor.
  - by constructor.
Qed.
Lemma erun_ok s l tr s' : erun s l = (tr, Ok s') → hrun s tr (Ok s').
Proof. intros E. assert (H := erun_sound l s). by rewrite E in H. Qed.

Definition final (l : list eop) (hosts : list string) : hd :=
  match (erun (hd_init hosts) l).2 with Ok s => s | Crash _ => hd_init [] end.
Definition trace (l : list eop) (hosts : list string) : list hop := (erun (hd_init hosts) l).1.
Definition succeeds (l : list eop) (hosts : list string) : bool :=
  match (erun (hd_init hosts) l).2 with Ok _ => true | Crash _ => false end.
Lemma run_final l hosts : succeeds l hosts = true → hrun (hd_init hosts) (trace l hosts) (Ok (final l hosts)).
Proof.
  unfold succeeds, trace, final. assert (H := erun_sound l (hd_init hosts)).
  destruct (erun (hd_init hosts) l) as [tr [s|w]]; cbn in *; [|done]. intros _. exact H.
Qed.
Lemma trace_resp l : ∀ s, Forall (λ op, match op with HResp r t1 t2 => EResp r ∈ l ∧ t1 = 1000 ∧ t2 = 1001 | _ => True end) (erun s l).1.
Proof.
  induction l as [|e l IH]; intros s; cbn [erun]; [constructor|].
  assert (match eop_hop s e with HResp r t1 t2 => EResp r ∈ e :: l ∧ t1 = 1000 ∧ t2 = 1001 | _ => True end) as H.
  { destruct e; cbn; try done. split; [left|done]. }
  destruct (hstep s (eop_hop s e)) as [s'|w]; cbn; constructor; try done.
  eapply Forall_impl; [apply IH|]. intros []; try done. intros (? & ?). split; [by right|done].
Qed.
Lemma trace_elem l hosts r t1 t2 : HResp r t1 t2 ∈ trace l hosts → EResp r ∈ l ∧ t1 = 1000 ∧ t2 = 1001.
Proof. intros H. assert (Hf := trace_resp l (hd_init hosts)). rewrite Forall_forall in Hf. by apply (Hf _ H). Qed.

(** sample data: [n] events "e" *)
Definition xi (s serial n : Z) : ia := IA s serial ∅ (AMaps ∅ ∅ {["e" := n]} ∅).
Definition xd (s serial n : Z) (loc : N) : option dagg := Some (DAgg loc (xi s serial n) false).
Definition minute : Z := 60000000000.
Definition xr (hp inst : string) (aggs : list (option dagg)) : resp := Resp hp 7 None 200 5 inst minute aggs.

Definition shown (s : hd) : list (Z * N * Z) :=
  map (λ p, (pa_time p, ctr_val (KTop (KEvents "e")) (pa_ia p))) (hd_pub s).

(** two hosts, several polls, in UTC *)
Definition x_good : list eop :=
  [EResp (xr "a" "i" [xd 60 4 10 0]); EResp (xr "b" "j" [xd 60 9 5 0; xd 120 2 1 0]); EResp (xr "c" "k" []);
   ERecalc;
   EResp (xr "a" "i" [xd 60 4 10 0; xd 120 3 2 0]); EResp (xr "b" "j" [xd 60 11 6 0; xd 120 2 1 0]); ERecalc].
Lemma x_good_ok : succeeds x_good ["a"; "b"] = true. Proof. by vm_compute. Qed.
Lemma x_good_shown : shown (final x_good ["a"; "b"]) = [((60, 0%N), 16); ((120, 0%N), 3)].
Proof. by vm_compute. Qed.

(** the same instant in two zones *)
Definition x_zones : list eop :=
  [EResp (xr "a" "i" [xd 60 4 10 0]); EResp (xr "b" "j" [xd 60 9 5 7]); ERecalc].

(** one host in a zone that is neither UTC nor healthd's: nothing changes
    between two polls, but every decoding makes a new location *)
Definition x_fresh : list eop :=
  [EResp (xr "a" "i" [xd 60 4 10 7]); EResp (xr "a" "i" [xd 60 4 10 8]); ERecalc].

(** a response listing one interval twice *)
Definition x_twice : resp := xr "a" "i" [xd 60 4 10 0; xd 60 1 2 0].
(** hosts that keep more than five intervals, and a purge *)
Definition x_old : list eop :=
  [EResp (xr "a" "i" [xd 60 4 10 0]); EResp (xr "b" "j" [xd 60 9 5 0]); ERecalc].
Definition x_old2 : list eop := [EPurge (60 + 6 * minute); EResp (xr "a" "i" [xd 60 4 10 0]); ERecalc].
Definition x_old3 : list eop :=
  [EPurge (60 + 6 * minute); EResp (xr "a" "i" [xd 60 4 10 0]); EResp (xr "b" "j" [xd 60 9 5 0]);
   EPurge (60 + 6 * minute); ERecalc].

Lemma reported_elem l hosts key d : reported (trace l hosts) key d →
  ∃ r, EResp r ∈ l ∧ Some d ∈ r_aggs r ∧ key = (d_time d, r_inst r, r_hp r).
Proof.
  intros (r & t1 & t2 & Hr & _ & Hd). exists r. apply trace_elem in Hr as (? & _ & _). split; [done|].
  apply elem_of_list_omap in Hd as (z & Hz & Hd). destruct z as [z|]; [|done]. destruct (decide _) as [E|]; [|done].
  injection Hd as ->. done.
Qed.
Lemma const_sorted (f : dagg → Z) v L : (∀ d, d ∈ L → f d = v) → StronglySorted (λ a b, f a ≤ f b) L.
Proof.
  induction L as [|x L IH]; intros H; constructor.
  - apply IH. intros d Hd. apply H. by right.
  - rewrite Forall_forall. intros y Hy. rewrite (H x), (H y); [lia|by right|left].
Qed.
Lemma reports_key_reported tr key d : d ∈ reports_key tr key → reported tr key d.
Proof.
  intros H. unfold reports_key in H. apply elem_of_list_In, in_concat in H as (L & HL & Hd).
  apply elem_of_list_In in Hd. apply elem_of_list_In, elem_of_list_fmap in HL as (op & -> & Hop). destruct op as [r t1 t2| |]; [|by apply elem_of_nil in Hd|by apply elem_of_nil in Hd].
  destruct (decide (usable r)); [|by apply elem_of_nil in Hd]. exists r, t1, t2. done.
Qed.
Lemma erun_app l1 l2 : ∀ s s', (erun s l1).2 = Ok s' → (erun s (l1 ++ l2)).1 = (erun s l1).1 ++ (erun s' l2).1 ∧
  (erun s (l1 ++ l2)).2 = (erun s' l2).2.
Proof.
  induction l1 as [|e l1 IH]; intros s s' H; cbn [app erun] in *.
  - injection H as ->. done.
  - destruct (hstep s (eop_hop s e)) as [s1|w]; cbn in *; [|done]. destruct (IH _ _ H) as [-> ->]. done.
Qed.
(** the run of [l1 ++ l2], cut in two *)
Lemma run_two l1 l2 hosts : succeeds l1 hosts = true → succeeds (l1 ++ l2) hosts = true →
  ∃ tr2, trace (l1 ++ l2) hosts = trace l1 hosts ++ tr2 ∧ hrun (final l1 hosts) tr2 (Ok (final (l1 ++ l2) hosts)).
Proof.
  unfold succeeds, trace, final. destruct (erun (hd_init hosts) l1).2 as [s|] eqn:E; [|done]. intros _.
  destruct (erun_app l1 l2 _ _ E) as [E1 E2]. rewrite E1, E2. intros H. eexists. split; [done|].
  assert (Hs := erun_sound l2 s). destruct (erun s l2).2; [done|done].
Qed.

Ltac cases H := repeat (apply elem_of_cons in H as [H|H]); [.. |by apply elem_of_nil in H]; try done.
Ltac reports H := apply reported_elem in H as (?r & H & ?Hd & ?Hk);
  repeat (apply elem_of_cons in H as [H|H]); try (by apply elem_of_nil in H); try done; injection H as ->.

Lemma x_zones_shown : succeeds x_zones ["a"; "b"] = true ∧ shown (final x_zones ["a"; "b"]) = [((60, 7%N), 5); ((60, 0%N), 10)].
Proof. vm_compute. done. Qed.
Lemma x_fresh_shown : succeeds x_fresh ["a"] = true ∧ shown (final x_fresh ["a"]) = [((60, 7%N), 10); ((60, 8%N), 10)].
Proof. vm_compute. done. Qed.
Lemma x_old_shown : shown (final x_old ["a"; "b"]) = [((60, 0%N), 15)] ∧
  shown (final (x_old ++ x_old2) ["a"; "b"]) = [((60, 0%N), 10)] ∧
  shown (final (x_old ++ x_old3) ["a"; "b"]) = [((60, 0%N), 0)].
Proof. vm_compute. done. Qed.

(** decoding a shown list *)
Lemma shown_elem s t v : (t, v) ∈ shown s → ∃ p, p ∈ hd_pub s ∧ pa_time p = t ∧ ctr_val (KTop (KEvents "e")) (pa_ia p) = v.
Proof. intros H. apply elem_of_list_fmap in H as (p & E & Hp). injection E as -> ->. eauto. Qed.

Ltac each := intros; unfold x_zones, x_good, x_old, x_old2, x_old3 in *; repeat (progress (unfold xr in *; cbn [r_aggs] in *) || match goal with
  | H : HResp _ _ _ ∈ trace _ _ |- _ => apply trace_elem in H as (H & _ & _)
  | H : _ ∈ _ :: _ |- _ => apply elem_of_cons in H as [H|H]
  | H : _ ∈ [] |- _ => by apply elem_of_nil in H
  | H : EResp _ = EResp _ |- _ => injection H as ->
  | H : EResp _ = _ |- _ => discriminate H
  | H : Some _ = xd _ _ _ _ |- _ => injection H as ->
  end).

Lemma wf_ex l hosts : (∀ r, EResp r ∈ l → usable r → 0 < r_dur r ∧ ∀ x, x ∈ r_aggs r → ∃ d, x = Some d ∧ d_null d = false) →
  well_formed (trace l hosts).
Proof. intros H r t1 t2 Hr. apply trace_elem in Hr as (Hr & _ & _). auto. Qed.
Lemma honest_ex l hosts :
  (∀ r1 r2 d1 d2, EResp r1 ∈ l → EResp r2 ∈ l → Some d1 ∈ r_aggs r1 → Some d2 ∈ r_aggs r2 →
     (d_time d1, r_inst r1, r_hp r1) = (d_time d2, r_inst r2, r_hp r2) →
     ia_serial (d_ia d1) = ia_serial (d_ia d2) → d1 = d2) →
  serials_honest (trace l hosts).
Proof.
  intros H key d1 d2 H1 H2 Hs. apply reported_elem in H1 as (r1 & H1 & Hd1 & Hk1). apply reported_elem in H2 as (r2 & H2 & Hd2 & Hk2).
  apply (H r1 r2); try done. by rewrite <- Hk1.
Qed.
Ltac wf := apply wf_ex; each; (split; [cbn; unfold minute; lia|]); each; subst; eexists; split; reflexivity.
Ltac honest := apply honest_ex; each; cbn in *; each; simplify_eq; try done.

Lemma cx_sorted : ∃ hosts tr s, hrun (hd_init hosts) tr (Ok s) ∧ well_formed tr ∧ serials_honest tr ∧ ¬ increasing (hd_pub s).
Proof.
  exists ["a"; "b"], (trace x_zones ["a"; "b"]), (final x_zones ["a"; "b"]). destruct x_zones_shown as [H1 H2].
  split; [by apply run_final|]. split; [wf|]. split; [honest|].
  unfold increasing. intros Hi. unfold shown in H2.
  destruct (hd_pub (final x_zones ["a"; "b"])) as [|p [|q l]]; [done|done|]. cbn in H2.
  injection H2 as E1 E2. inversion Hi as [|? ? ? Hf]; subst. inversion Hf; subst.
  unfold pa_time in *. simplify_eq. lia.
Qed.
Lemma cx_one_instant : ∃ hosts tr s p q, hrun (hd_init hosts) tr (Ok s) ∧ well_formed tr ∧ serials_honest tr ∧
  p ∈ hd_pub s ∧ q ∈ hd_pub s ∧ ia_start (pa_ia p) = ia_start (pa_ia q) ∧
  ctr_val (KTop (KEvents "e")) (pa_ia p) = 5 ∧ ctr_val (KTop (KEvents "e")) (pa_ia q) = 10.
Proof.
  destruct x_zones_shown as [H1 H2].
  destruct (shown_elem (final x_zones ["a"; "b"]) (60, 7%N) 5) as (p & Hp & Tp & Vp); [rewrite H2; left|].
  destruct (shown_elem (final x_zones ["a"; "b"]) (60, 0%N) 10) as (q & Hq & Tq & Vq); [rewrite H2; right; left|].
  exists ["a"; "b"], (trace x_zones ["a"; "b"]), (final x_zones ["a"; "b"]), p, q.
  split; [by apply run_final|]. split; [wf|]. split; [honest|]. unfold pa_time in *. simplify_eq. split_and!; try done. congruence.
Qed.
(** one host, one interval, two polls that differ in nothing but the location
    Go allocated while decoding *)
Lemma cx_doubled : ∃ hosts r1 r2 o s p q, hrun (hd_init hosts) [HResp r1 1000 1001; HResp r2 1000 1001; HRecalc o] (Ok s) ∧
  r_hp r1 = r_hp r2 ∧ r_inst r1 = r_inst r2 ∧ usable r1 ∧ usable r2 ∧
  map (fmap d_ia) (r_aggs r1) = map (fmap d_ia) (r_aggs r2) ∧ length (r_aggs r1) = 1%nat ∧
  hd_pub s = [p; q] ∧ ia_start (pa_ia p) = ia_start (pa_ia q) ∧
  ctr_val (KTop (KEvents "e")) (pa_ia p) = 10 ∧ ctr_val (KTop (KEvents "e")) (pa_ia q) = 10.
Proof.
  destruct x_fresh_shown as [H1 H2]. assert (H := run_final _ _ H1). unfold shown in H2.
  destruct (hd_pub (final x_fresh ["a"])) as [|p [|q [|]]] eqn:E; try done. cbn in H2. injection H2 as E1 E2.
  exists ["a"], (xr "a" "i" [xd 60 4 10 7]), (xr "a" "i" [xd 60 4 10 8]).
  assert (∃ o, trace x_fresh ["a"] = [HResp (xr "a" "i" [xd 60 4 10 7]) 1000 1001; HResp (xr "a" "i" [xd 60 4 10 8]) 1000 1001; HRecalc o]) as [o Eo].
  { eexists. unfold trace, x_fresh. cbn [erun]. vm_compute. reflexivity. }
  rewrite Eo in H. exists o, (final x_fresh ["a"]), p, q. unfold pa_time in *. simplify_eq. split_and!; try done. congruence.
Qed.

(** an identical response makes the interval pending again *)
Lemma cx_repoll : ∃ hosts r o s s', hrun (hd_init hosts) [HResp r 1000 1001; HRecalc o] (Ok s) ∧ usable r ∧
  hstep s (HResp r 1002 1003) = Ok s' ∧ hd_need s = ∅ ∧ hd_need s' ≠ ∅.
Proof.
  set (l := [EResp x_twice; ERecalc]). assert (succeeds l ["a"] = true) as H1 by (by vm_compute).
  assert (H := run_final _ _ H1).
  assert (∃ o, trace l ["a"] = [HResp x_twice 1000 1001; HRecalc o]) as [o Eo].
  { eexists. vm_compute. reflexivity. }
  rewrite Eo in H.
  destruct (hstep (final l ["a"]) (HResp x_twice 1002 1003)) as [s'|w] eqn:E; [|by vm_compute in E].
  exists ["a"], x_twice, o, (final l ["a"]), s'. split_and!; try done.
  - assert (bool_decide (hd_need s' = ∅) = false) as Hb; [|by apply bool_decide_eq_false in Hb].
    assert (match hstep (final l ["a"]) (HResp x_twice 1002 1003) with Ok x => bool_decide (hd_need x = ∅) | Crash _ => true end = false) as G by (by vm_compute).
    by rewrite E in G.
Qed.
Lemma cx_repoll_purge : ∃ hosts r o now s s', hrun (hd_init hosts) [HResp r 1000 1001; HRecalc o; HPurge now] (Ok s) ∧ usable r ∧ listed_once r ∧
  hstep s (HResp r 1002 1003) = Ok s' ∧ hd_need s = ∅ ∧ hd_need s' ≠ ∅.
Proof.
  set (r := xr "a" "i" [xd 60 4 10 0]). set (l := [EResp r; ERecalc; EPurge (60 + 6 * minute)]).
  assert (succeeds l ["a"] = true) as H1 by (by vm_compute).
  assert (H := run_final _ _ H1).
  assert (∃ o now, trace l ["a"] = [HResp r 1000 1001; HRecalc o; HPurge now]) as (o & now & Eo).
  { eexists _, _. vm_compute. reflexivity. }
  rewrite Eo in H.
  destruct (hstep (final l ["a"]) (HResp r 1002 1003)) as [s'|w] eqn:E; [|by vm_compute in E].
  exists ["a"], r, o, now, (final l ["a"]), s'. split_and!; try done.
  - repeat constructor. apply not_elem_of_nil.
  - assert (bool_decide (hd_need s' = ∅) = false) as Hb; [|by apply bool_decide_eq_false in Hb].
    assert (match hstep (final l ["a"]) (HResp r 1002 1003) with Ok x => bool_decide (hd_need x = ∅) | Crash _ => true end = false) as G by (by vm_compute).
    by rewrite E in G.
Qed.

(** published counts shrink after a purge *)
Lemma cx_shrinks_gen l2 v : succeeds (x_old ++ l2) ["a"; "b"] = true →
  shown (final (x_old ++ l2) ["a"; "b"]) = [((60, 0%N), v)] → v < 15 →
  (∀ r, EResp r ∈ l2 → r = xr "a" "i" [xd 60 4 10 0] ∨ r = xr "b" "j" [xd 60 9 5 0]) →
  ∃ hosts tr1 tr2 s1 s2 p1 p2, hrun (hd_init hosts) tr1 (Ok s1) ∧ hrun s1 tr2 (Ok s2) ∧
  well_formed (tr1 ++ tr2) ∧ serials_honest (tr1 ++ tr2) ∧ one_zone utc (tr1 ++ tr2) ∧
  growing (tr1 ++ tr2) (pa_time p1) (KTop (KEvents "e")) ∧
  p1 ∈ hd_pub s1 ∧ p2 ∈ hd_pub s2 ∧ pa_time p1 = pa_time p2 ∧
  ctr_val (KTop (KEvents "e")) (pa_ia p1) = 15 ∧ ctr_val (KTop (KEvents "e")) (pa_ia p2) = v.
Proof.
  intros S2 Sh Hv Hl. assert (succeeds x_old ["a"; "b"] = true) as S1 by (by vm_compute).
  destruct (run_two x_old l2 ["a"; "b"] S1 S2) as (tr2 & Et & Hr2).
  destruct x_old_shown as [O1 _].
  destruct (shown_elem (final x_old ["a"; "b"]) (60, 0%N) 15) as (p & Hp & Tp & Vp); [rewrite O1; left|].
  destruct (shown_elem (final (x_old ++ l2) ["a"; "b"]) (60, 0%N) v) as (q & Hq & Tq & Vq); [rewrite Sh; left|].
  exists ["a"; "b"], (trace x_old ["a"; "b"]), tr2, (final x_old ["a"; "b"]), (final (x_old ++ l2) ["a"; "b"]), p, q.
  rewrite <- Et.
  assert (∀ r, EResp r ∈ x_old ++ l2 → r = xr "a" "i" [xd 60 4 10 0] ∨ r = xr "b" "j" [xd 60 9 5 0]) as Hl'.
  { intros r Hr. apply elem_of_app in Hr as [Hr|Hr]; [|auto]. unfold x_old in Hr. each; auto. }
  split; [by apply run_final|]. split; [done|]. split.
  { apply wf_ex. intros r Hr _. apply Hl' in Hr as [->| ->]; (split; [cbn; unfold minute; lia|]); each; subst; eexists; split; reflexivity. }
  split.
  { apply honest_ex. intros r1 r2 d1 d2 H1 H2 Hd1 Hd2 Hk Hs. apply Hl' in H1, H2.
    destruct H1 as [->| ->], H2 as [->| ->]; each; done. }
  split.
  { intros r t1 t2 d Hr Hd. apply trace_elem in Hr as (Hr & _ & _). apply Hl' in Hr as [->| ->]; each; done. }
  split.
  { intros key Hk. destruct (decide (key = (60, 0%N, "i", "a"))) as [->|Hne].
    - apply (const_sorted (λ d, ctr_val (KTop (KEvents "e")) (d_ia d)) 10). intros d Hd.
      apply reports_key_reported, reported_elem in Hd as (r & Hr & Hd & Hkk).
      apply Hl' in Hr as [->| ->]; each; done.
    - apply (const_sorted (λ d, ctr_val (KTop (KEvents "e")) (d_ia d)) 5). intros d Hd.
      apply reports_key_reported, reported_elem in Hd as (r & Hr & Hd & Hkk).
      apply Hl' in Hr as [->| ->]; each; done. }
  split_and!; try done. congruence.
Qed.
Lemma cx_shrinks : ∃ hosts tr1 tr2 s1 s2 p1 p2, hrun (hd_init hosts) tr1 (Ok s1) ∧ hrun s1 tr2 (Ok s2) ∧
  well_formed (tr1 ++ tr2) ∧ serials_honest (tr1 ++ tr2) ∧ one_zone utc (tr1 ++ tr2) ∧
  growing (tr1 ++ tr2) (pa_time p1) (KTop (KEvents "e")) ∧
  p1 ∈ hd_pub s1 ∧ p2 ∈ hd_pub s2 ∧ pa_time p1 = pa_time p2 ∧
  ctr_val (KTop (KEvents "e")) (pa_ia p1) = 15 ∧ ctr_val (KTop (KEvents "e")) (pa_ia p2) = 10.
Proof.
  apply (cx_shrinks_gen x_old2); [by vm_compute|apply x_old_shown|lia|]. intros r Hr. unfold x_old2 in Hr. each; auto.
Qed.
Lemma cx_emptied : ∃ hosts tr1 tr2 s1 s2 p1 p2, hrun (hd_init hosts) tr1 (Ok s1) ∧ hrun s1 tr2 (Ok s2) ∧
  well_formed (tr1 ++ tr2) ∧ serials_honest (tr1 ++ tr2) ∧ one_zone utc (tr1 ++ tr2) ∧
  growing (tr1 ++ tr2) (pa_time p1) (KTop (KEvents "e")) ∧
  p1 ∈ hd_pub s1 ∧ p2 ∈ hd_pub s2 ∧ pa_time p1 = pa_time p2 ∧
  ctr_val (KTop (KEvents "e")) (pa_ia p1) = 15 ∧ ctr_val (KTop (KEvents "e")) (pa_ia p2) = 0.
Proof.
  apply (cx_shrinks_gen x_old3); [by vm_compute|apply x_old_shown|lia|]. intros r Hr. unfold x_old3 in Hr. each; auto.
Qed.

(** crashes *)
Lemma crash_ex l hosts w : (erun (hd_init hosts) l).2 = Crash w → hrun (hd_init hosts) (trace l hosts) (Crash w).
Proof. intros E. assert (H := erun_sound l (hd_init hosts)). by rewrite E in H. Qed.
Definition x_zero : resp := Resp "a" 7 None 200 5 "i" 0 [].
Definition x_neg : resp := Resp "a" 7 None 200 5 "i" (-1) [xd 60 4 10 0].
Definition x_null : resp := xr "a" "i" [None].
Definition x_nullentry : resp := xr "a" "i" [Some (DAgg 0 (xi 60 4 10) true)].
Lemma cx_crash : ∃ r1 r2 r3 r4 o2 o4 w1 w2 w3 w4,
  usable r1 ∧ r_dur r1 = 0 ∧ r_aggs r1 = [] ∧ hrun (hd_init ["a"]) [HResp r1 1000 1001] (Crash w1) ∧
  usable r2 ∧ r_dur r2 = -1 ∧ hrun (hd_init ["a"]) [HResp r2 1000 1001; HRecalc o2] (Crash w2) ∧
  usable r3 ∧ r_dur r3 = minute ∧ r_aggs r3 = [None] ∧ hrun (hd_init ["a"]) [HResp r3 1000 1001] (Crash w3) ∧
  usable r4 ∧ r_dur r4 = minute ∧ (∃ d, r_aggs r4 = [Some d]) ∧ hrun (hd_init ["a"]) [HResp r4 1000 1001; HRecalc o4] (Crash w4).
Proof.
  exists x_zero, x_neg, x_null, x_nullentry.
  assert (∃ o2 w2, hrun (hd_init ["a"]) [HResp x_neg 1000 1001; HRecalc o2] (Crash w2)) as (o2 & w2 & H2).
  { eexists _, _. assert (trace [EResp x_neg; ERecalc] ["a"] = [HResp x_neg 1000 1001; HRecalc (the_order (final [EResp x_neg] ["a"]))]) as E by (by vm_compute).
    rewrite <- E. apply crash_ex. vm_compute. reflexivity. }
  assert (∃ o4 w4, hrun (hd_init ["a"]) [HResp x_nullentry 1000 1001; HRecalc o4] (Crash w4)) as (o4 & w4 & H4).
  { eexists _, _. assert (trace [EResp x_nullentry; ERecalc] ["a"] = [HResp x_nullentry 1000 1001; HRecalc (the_order (final [EResp x_nullentry] ["a"]))]) as E by (by vm_compute).
    rewrite <- E. apply crash_ex. vm_compute. reflexivity. }
  exists o2, o4, "integer divide by zero", w2, "nil pointer dereference", w4. split_and!; try done.
  - apply (crash_ex [EResp x_zero] ["a"]). by vm_compute.
  - apply (crash_ex [EResp x_null] ["a"]). by vm_compute.
  - eexists. reflexivity.
Qed.

(** ** The hypotheses of the partial theorems hold of the ordinary run *)
Lemma trace_purge l : ∀ s now, HPurge now ∈ (erun s l).1 → ∃ t, EPurge t ∈ l.
Proof.
  induction l as [|e l IH]; intros s now H; cbn [erun] in H; [by apply elem_of_nil in H|].
  assert (HPurge now = eop_hop s e → ∃ t, EPurge t ∈ e :: l) as H0.
  { destruct e; cbn; intros; try done. eexists. left. }
  destruct (hstep s (eop_hop s e)) as [s'|w]; cbn in H; apply elem_of_cons in H as [H|H]; auto.
  - destruct (IH _ _ H) as [t Ht]. exists t. by right.
  - by apply elem_of_nil in H.
Qed.
Lemma sums_small tr k c keys B :
  (∀ key d, reported tr key d → 0 ≤ ctr_val c (d_ia d) ≤ B ∧ key ∈ keys) → B * Z.of_nat (length keys) < 2 ^ 63 → sums_fit tr k c.
Proof.
  intros H HB tr1 tr2 l E [Hn Hl].
  assert (∀ x, x ∈ l → 0 ≤ ctr_val c (d_ia x.2) ≤ B ∧ x.1 ∈ keys) as Hx.
  { intros [key d] Hx. apply Hl in Hx as [Hx _]. apply latest_reported in Hx as (r & t1 & t2 & Hr & Hd).
    apply (H key d). exists r, t1, t2. split; [|done]. rewrite E. apply elem_of_app. auto. }
  assert (length l ≤ length keys)%nat as Hlen.
  { rewrite <- (map_length fst). apply NoDup_incl_length; [by apply NoDup_ListNoDup|].
    intros key Hk. apply elem_of_list_In. apply elem_of_list_In, elem_of_list_fmap in Hk as (x & -> & Hk). by apply Hx. }
  assert (l ≠ [] → 0 ≤ B) as HB0.
  { destruct l as [|x l]; [done|]. intros _. destruct (Hx x) as [? _]; [left|lia]. }
  assert (zsum (map (λ kd : hkey * dagg, ctr_val c (d_ia kd.2)) l) ≤ B * Z.of_nat (length l)) as Hz.
  { clear -Hx. induction l as [|x l IH]; [cbn; lia|]. cbn [map length]. rewrite Nat2Z.inj_succ.
    destruct (Hx x) as [? _]; [left|]. unfold zsum in *. cbn [foldr].
    specialize (IH (λ y Hy, Hx y (elem_of_list_further _ _ _ Hy))). lia. }
  destruct l as [|x l]; [cbn; lia|]. specialize (HB0 ltac:(done)). nia.
Qed.

Lemma x_good_wf : well_formed (trace x_good ["a"; "b"]).
Proof. wf. Qed.
Lemma x_good_honest : serials_honest (trace x_good ["a"; "b"]).
Proof.
  apply honest_ex. intros r1 r2 d1 d2 H1 H2 Hd1 Hd2 Hk Hs. unfold x_good in *. each; vm_compute in Hk, Hs; simplify_eq; done.
Qed.
Lemma x_good_zone : one_zone utc (trace x_good ["a"; "b"]).
Proof. intros r t1 t2 d Hr Hd. each; done. Qed.
Lemma x_good_never k : never_expires (trace x_good ["a"; "b"]) k.
Proof.
  intros tr1 now tr2 key E _. exfalso. assert (HPurge now ∈ trace x_good ["a"; "b"]) as H by (rewrite E; apply elem_of_app; right; left).
  apply trace_purge in H as [t Ht]. unfold x_good in Ht. repeat (apply elem_of_cons in Ht as [Ht|Ht]; [done|]). by apply elem_of_nil in Ht.
Qed.
Lemma x_good_reports key d : reported (trace x_good ["a"; "b"]) key d →
  (key, d) ∈ [((60, 0%N, "i", "a"), DAgg 0 (xi 60 4 10) false); ((60, 0%N, "j", "b"), DAgg 0 (xi 60 9 5) false);
              ((60, 0%N, "j", "b"), DAgg 0 (xi 60 11 6) false); ((120, 0%N, "j", "b"), DAgg 0 (xi 120 2 1) false);
              ((120, 0%N, "i", "a"), DAgg 0 (xi 120 3 2) false)].
Proof.
  intros H. apply reported_elem in H as (r & H & Hd & ->). unfold x_good in *. each; cbn [r_inst r_hp]; unfold d_time; cbn; inl.
Qed.
Lemma x_int64 s n m : in_int64 n → in_int64 m → int64_ia (xi s n m).
Proof.
  intros Hn Hm. split; [done|]. split.
  - split; [|split; intros ? ? H; cbn in H; by rewrite lookup_empty in H].
    intros e v H. cbn in H. apply lookup_singleton_Some in H as [_ <-]. done.
  - intros ? ? H. cbn in H. by rewrite lookup_empty in H.
Qed.
Lemma x_good_sane : sane_reports (trace x_good ["a"; "b"]) (KTop (KEvents "e")).
Proof. intros key d H. apply x_good_reports in H. each; injection H as -> ->; (split; [apply x_int64; split; lia|vm_compute; done]). Qed.
Lemma x_good_fit k : sums_fit (trace x_good ["a"; "b"]) k (KTop (KEvents "e")).
Proof.
  apply (sums_small _ _ _ [(60, 0%N, "i", "a"); (60, 0%N, "j", "b"); (120, 0%N, "j", "b"); (120, 0%N, "i", "a")] 10); [|cbn; lia].
  intros key d H. apply x_good_reports in H. each; injection H as -> ->; (split; [vm_compute; split; discriminate|inl]).
Qed.
Lemma x_good_growing : growing (trace x_good ["a"; "b"]) (60, 0%N) (KTop (KEvents "e")).
Proof.
  intros key Hk. unfold trace.
  assert (reports_key (erun (hd_init ["a"; "b"]) x_good).1 key =
     reports_at (xr "a" "i" [xd 60 4 10 0]) key ++ reports_at (xr "b" "j" [xd 60 9 5 0; xd 120 2 1 0]) key ++
     reports_at (xr "a" "i" [xd 60 4 10 0; xd 120 3 2 0]) key ++ reports_at (xr "b" "j" [xd 60 11 6 0; xd 120 2 1 0]) key) as ->.
  { assert (∃ o1 o2, (erun (hd_init ["a"; "b"]) x_good).1 =
      [HResp (xr "a" "i" [xd 60 4 10 0]) 1000 1001; HResp (xr "b" "j" [xd 60 9 5 0; xd 120 2 1 0]) 1000 1001; HResp (xr "c" "k" []) 1000 1001; HRecalc o1;
       HResp (xr "a" "i" [xd 60 4 10 0; xd 120 3 2 0]) 1000 1001; HResp (xr "b" "j" [xd 60 11 6 0; xd 120 2 1 0]) 1000 1001; HRecalc o2]) as (o1 & o2 & ->).
    { eexists _, _. vm_compute. reflexivity. }
    unfold reports_key. cbn [map concat]. by rewrite !app_nil_r, ?app_nil_l. }
  unfold reports_at, xr, xd. cbn [r_aggs r_inst r_hp omap list_omap].
  unfold d_time. cbn [d_ia d_loc xi ia_start].
  destruct key as [[t i] h]. unfold key_time in Hk. cbn in Hk. subst t.
  destruct (decide (i = "i" ∧ h = "a")) as [[-> ->]|H1]; [|destruct (decide (i = "j" ∧ h = "b")) as [[-> ->]|H2]].
  - cbn. repeat constructor; vm_compute; discriminate.
  - cbn. repeat constructor; vm_compute; discriminate.
  - repeat (rewrite decide_False by (intros E; injection E; intros; subst; tauto)). cbn. constructor.
Qed.
