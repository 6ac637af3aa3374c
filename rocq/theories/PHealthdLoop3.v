(** * Proofs about healthd's goroutines: rounds of polls *)
From Verif Require Import SHealthdLoop PHealthd PHealthd2 PHealthd4 PHealthdLoop PHealthdLoop2.

(** ** The hosts never change *)
Lemma status_dom hosts tr s : hrun (hd_init hosts) tr (Ok s) → ∀ hp, is_Some (hd_status s !! hp) ↔ hp ∈ hosts.
Proof.
  revert s. induction tr as [|op tr IH] using rev_ind; intros s H hp.
  { inversion H; subst. rewrite status_init. destruct (decide _); split; try done. intros [? [=]]. }
  apply hrun_snoc in H as (m&H1&Ho&H2). rewrite <-(IH m H1 hp). clear -H2. destruct op; cbn in H2.
  - unfold consume in H2. 
    assert (hd_status s = match hd_status m !! r_hp r with Some hs => <[r_hp r := update_status hs r t1 t2]> (hd_status m) | None => hd_status m end) as ->.
    { repeat match type of H2 with (if ?b then _ else _) = _ => destruct b end; try destruct (consume_aggs _ _ _ _ _); cbn in H2; by simplify_eq. }
    destruct (hd_status m !! r_hp r) eqn:E; [|done].
    destruct (decide (r_hp r = hp)) as [<-|Hne]; [rewrite lookup_insert, E; split; by eauto|by rewrite lookup_insert_ne].
  - unfold purge in H2. destruct (truncate_pub _ _); [|done]. cbn in H2. by simplify_eq.
  - unfold recalc in H2. destruct (recalc_loop _ _ _ _); [|done]. cbn in H2. by simplify_eq.
Qed.
Lemma hosts_of_perm hosts tr s : hrun (hd_init hosts) tr (Ok s) → hosts_of s ≡ₚ remove_dups hosts.
Proof.
  intros H. apply NoDup_Permutation; [apply NoDup_fst_map_to_list|apply NoDup_remove_dups|].
  intros hp. rewrite elem_of_remove_dups, <-(status_dom _ _ _ H). unfold hosts_of. rewrite elem_of_list_fmap. split.
  - intros ([k v]&->&Hin). apply elem_of_map_to_list in Hin. by eauto.
  - intros [v Hv]. exists (hp, v). by rewrite elem_of_map_to_list.
Qed.

(** ** Responses of a round *)
Definition queued_of (k : nat) (q : list (nat * option resp)) : list resp :=
  omap (λ x, if decide (x.1 = k) then x.2 else None) q.
Definition nils_in (k : nat) (q : list (nat * option resp)) : nat :=
  length (filter (λ x : nat * option resp, x.1 = k ∧ x.2 = None) q).
Definition nils_taken (k : nat) (tr : list (Z * hact)) : nat :=
  length (omap (λ a, match a.2 with HTakeNil k' _ => if decide (k' = k) then Some tt else None | _ => None end) tr).
(** nothing of round [k] after its nil *)
Definition nil_last (k : nat) (q : list (nat * option resp)) : Prop :=
  ∀ q1 q2, q = q1 ++ (k, None) :: q2 → queued_of k q2 = [].

Definition round_ok (hosts : list string) (k : nat) (tr : list (Z * hact)) (s : hl) : Prop :=
  match l_rounds s !! k with
  | None => taken_of k tr = [] ∧ queued_of k (l_resp s) = [] ∧ nils_in k (l_resp s) = O ∧ nils_taken k tr = O
  | Some (Some rem) =>
      map r_hp (taken_of k tr ++ queued_of k (l_resp s)) ++ rem ≡ₚ remove_dups hosts ∧
      nils_in k (l_resp s) = O ∧ nils_taken k tr = O
  | Some None =>
      map r_hp (taken_of k tr ++ queued_of k (l_resp s)) ≡ₚ remove_dups hosts ∧ nil_last k (l_resp s) ∧
      (nils_in k (l_resp s) + nils_taken k tr)%nat = 1%nat
  end.

#[local] Arguments queued_of : simpl never.
#[local] Arguments nils_in : simpl never.
#[local] Arguments nils_taken : simpl never.
#[local] Arguments taken_of : simpl never.
#[local] Arguments remove_dups : simpl never.

Lemma remove_perm (x : string) l : NoDup l → x ∈ l → l ≡ₚ x :: remove string_dec x l.
Proof.
  induction l as [|y l IH]; intros Hnd Hin; [by apply elem_of_nil in Hin|]. inversion Hnd as [|? ? Hn Hnd']; subst. cbn.
  destruct (string_dec x y) as [->|Hne].
  - rewrite notin_remove; [done|]. by rewrite <-elem_of_list_In.
  - apply elem_of_cons in Hin as [?|Hin]; [done|]. rewrite (IH Hnd' Hin) at 1. apply perm_swap.
Qed.
Lemma nil_last_none k q : nils_in k q = O → nil_last k q.
Proof.
  intros H q1 q2 ->. unfold nils_in in H. rewrite filter_app, filter_cons_True in H by done. rewrite app_length in H. cbn in H. lia.
Qed.
Lemma nil_last_snoc k q x : nil_last k q → nils_in k q = O ∨ x.1 ≠ k → nil_last k (q ++ [x]).
Proof.
  intros H Hor q1 q2 E. destruct q2 as [|y q2 _] using rev_ind.
  - done.
  - rewrite app_comm_cons, app_assoc in E. apply app_inj_tail in E as [-> ->].
    destruct Hor as [Hn|Hn].
    + unfold nils_in in Hn. rewrite filter_app, filter_cons_True in Hn by done. rewrite app_length in Hn. cbn in Hn. lia.
    + unfold queued_of. rewrite omap_snoc. rewrite decide_False by done. rewrite app_nil_r. by eapply H.
Qed.
Lemma nil_last_tail k x q : nil_last k (x :: q) → nil_last k q.
Proof. intros H q1 q2 ->. by apply (H (x :: q1) q2). Qed.

Lemma rounds_inv hosts tr s : hlsteps (hl_init hosts) tr s → l_loop s ≠ ACrash → ∀ k, round_ok hosts k tr s.
Proof.
  revert s. induction tr as [|[t a] tr IH] using rev_ind; intros s H Hcr k.
  { inversion H; subst. unfold round_ok. destruct k as [|k]; cbn; [|done].
    split; [|done]. change (fold_left _ _ _) with (hd_status (hd_init hosts)). eapply (hosts_of_perm hosts []). constructor. }
  apply hlsteps_snoc in H as (m&H1&H2).
  assert (Hm : l_loop m ≠ ACrash). { inversion H2; subst; congruence. }
  specialize (IH m H1 Hm k). pose proof (loop_ops _ _ _ H1 Hm) as Hops.
  assert (Htk : ∀ k', taken_of k' (tr ++ [(t, a)]) = taken_of k' tr ++ match a with HTakeResp j r _ _ => if decide (j = k') then [r] else [] | _ => [] end).
  { intros k'. unfold taken_of. rewrite omap_snoc. cbn. destruct a; try done. by case_decide. }
  assert (Hnt : ∀ k', nils_taken k' (tr ++ [(t, a)]) = (nils_taken k' tr + match a with HTakeNil j _ => if decide (j = k') then 1 else 0 | _ => 0 end)%nat).
  { intros k'. unfold nils_taken. rewrite omap_snoc, app_length. cbn. destruct a; try done. by case_decide. }
  assert (Hqs : ∀ q x, queued_of k (q ++ [x]) = queued_of k q ++ if decide (x.1 = k) then option_list x.2 else []).
  { intros q x. unfold queued_of. rewrite omap_snoc. case_decide; [by destruct x.2|done]. }
  assert (Hns : ∀ q x, nils_in k (q ++ [x]) = (nils_in k q + if decide (x.1 = k ∧ x.2 = None) then 1 else 0)%nat).
  { intros q x. unfold nils_in. rewrite filter_app, app_length. f_equal. cbn. by case_decide. }
  unfold round_ok in *. rewrite Htk, Hnt.
  inversion H2; subst; cbn [l_rounds l_resp with_queue with_deb]; rewrite ?app_nil_r, ?Nat.add_0_r; after_case; try done.
  (* tick *)
  - destruct (decide (k = length (l_rounds m))) as [->|Hne].
    + rewrite lookup_ge_None_2 in IH by lia. rewrite list_lookup_middle by done.
      destruct IH as (E1&E2&E3&E4). rewrite E1, E2. cbn. split; [|done]. by eapply hosts_of_perm.
    + destruct (decide (k < length (l_rounds m))%nat).
      * by rewrite lookup_app_l.
      * rewrite lookup_ge_None_2 in IH by lia. rewrite lookup_ge_None_2; [done|]. rewrite app_length. cbn. lia.
  (* push *)
  - rewrite Hqs, Hns. cbn. rewrite (decide_False (P := _ ∧ _)) by naive_solver. rewrite Nat.add_0_r.
    destruct (decide (k0 = k)) as [->|Hne].
    + rewrite list_lookup_insert by (by eapply lookup_lt_Some).
      match goal with H : l_rounds m !! k = _ |- _ => rewrite H in IH end. destruct IH as (E1&E2&E3). split; [|done].
      assert (Hnd : NoDup rem). { assert (Hn : NoDup (remove_dups hosts)) by apply NoDup_remove_dups. rewrite <-E1 in Hn. by apply NoDup_app in Hn as (_&_&?). }
      rewrite (remove_perm (r_hp r) rem) in E1 by done. rewrite <-E1. rewrite !map_app. cbn. solve_Permutation.
    + rewrite list_lookup_insert_ne by done. rewrite app_nil_r.
      destruct (l_rounds m !! k) as [[rem'|]|]; [done| |done]. destruct IH as (E1&E2&E3). split; [done|]. split; [|done].
      apply nil_last_snoc; [done|by right].
  (* push nil *)
  - rewrite Hqs, Hns. cbn.
    destruct (decide (k0 = k)) as [->|Hne].
    + rewrite list_lookup_insert by (by eapply lookup_lt_Some).
      match goal with H : l_rounds m !! k = _ |- _ => rewrite H in IH end. destruct IH as (E1&E2&E3). rewrite app_nil_r in *.
      split; [done|]. rewrite (decide_True (P := _ ∧ _)) by done. split; [|lia].
      apply nil_last_snoc; [by apply nil_last_none|by left].
    + rewrite list_lookup_insert_ne by done. rewrite app_nil_r. rewrite (decide_False (P := _ ∧ _)) by naive_solver. rewrite Nat.add_0_r.
      destruct (l_rounds m !! k) as [[rem'|]|]; [done| |done]. destruct IH as (E1&E2&E3). split; [done|]. split; [|done].
      apply nil_last_snoc; [done|by right].
  (* take a response *)
  - match goal with H : l_resp m = _ |- _ => rewrite H in IH end.
    assert (Eq : queued_of k ((k0, Some r) :: q) = (if decide (k0 = k) then [r] else []) ++ queued_of k q).
    { unfold queued_of. cbn. by case_decide. }
    assert (En : nils_in k ((k0, Some r) :: q) = nils_in k q).
    { unfold nils_in. by rewrite filter_cons_False by naive_solver. }
    rewrite Eq, En in IH. rewrite <-app_assoc.
    destruct (l_rounds m !! k) as [[rem'|]|].
    + done.
    + destruct IH as (E1&E2&E3). split; [done|]. split; [by eapply nil_last_tail|done].
    + destruct IH as (E1&E2&E3). apply app_eq_nil in E2 as [E2 E4]. rewrite E1, E2, E4. done.
  (* take a nil *)
  - match goal with H : l_resp m = _ |- _ => rewrite H in IH end.
    assert (Eq : queued_of k ((k0, None) :: q) = queued_of k q).
    { unfold queued_of. cbn. by case_decide. }
    assert (En : nils_in k ((k0, None) :: q) = ((if decide (k0 = k) then 1 else 0) + nils_in k q)%nat).
    { unfold nils_in. cbn. case_decide; case_decide; naive_solver. }
    rewrite Eq, En in IH.
    destruct (l_rounds m !! k) as [[rem'|]|].
    + destruct IH as (E1&E2&E3). split; [done|]. split; lia.
    + destruct IH as (E1&E2&E3). split; [done|]. split; [by eapply nil_last_tail|lia].
    + destruct IH as (E1&E2&E3&E4). repeat split; [done|done|lia|lia].
Qed.
Lemma thm_sentinel hosts tr t k o s : hlsteps (hl_init hosts) (tr ++ [(t, HTakeNil k o)]) s →
  map r_hp (taken_of k tr) ≡ₚ remove_dups hosts ∧ ∀ t' o', (t', HTakeNil k o') ∉ tr.
Proof.
  intros H. apply hlsteps_snoc in H as (m&H1&H2). inversion H2; subst.
  match goal with H : l_loop m = ASel, H' : l_resp m = _ |- _ => rename H into El, H' into Er end.
  pose proof (rounds_inv _ _ _ H1 ltac:(by rewrite El) k) as Hr. unfold round_ok in Hr. rewrite Er in Hr.
  assert (En : nils_in k ((k, None) :: q) = S (nils_in k q)). { unfold nils_in. by rewrite filter_cons_True. }
  rewrite En in Hr. destruct (l_rounds m !! k) as [[rem'|]|]; [naive_solver lia| |naive_solver lia].
  destruct Hr as (E1&E2&E3). rewrite map_app in E1. unfold queued_of in E1. cbn in E1. rewrite decide_True in E1 by done.
  assert (E4 : queued_of k q = []) by (by apply (E2 [] q)). unfold queued_of in E4. rewrite E4, app_nil_r in E1.
  split; [done|]. intros t' o' Hin. assert (E5 : nils_taken k tr = O) by lia. unfold nils_taken in E5.
  apply nil_length_inv in E5. assert (tt ∈ @nil unit); [|by eapply not_elem_of_nil]. rewrite <-E5. apply elem_of_list_omap.
  eexists. split; [exact Hin|]. cbn. by rewrite decide_True.
Qed.
Lemma thm_sentinel_after hosts tr t k o tr' s : hlsteps (hl_init hosts) (tr ++ (t, HTakeNil k o) :: tr') s → l_loop s ≠ ACrash →
  taken_of k tr' = [].
Proof.
  intros H Hc. replace (tr ++ (t, HTakeNil k o) :: tr') with ((tr ++ [(t, HTakeNil k o)]) ++ tr') in H by (by rewrite <-app_assoc).
  pose proof (rounds_inv _ _ _ H Hc k) as Hr.
  apply hlsteps_app in H as (m&H1&H2). apply thm_sentinel in H1 as [Hp _]. unfold round_ok in Hr.
  assert (Et : taken_of k ((tr ++ [(t, HTakeNil k o)]) ++ tr') = taken_of k tr ++ taken_of k tr').
  { unfold taken_of. rewrite !omap_app. cbn. by rewrite app_nil_r. }
  assert (En : nils_taken k ((tr ++ [(t, HTakeNil k o)]) ++ tr') ≠ O).
  { unfold nils_taken. rewrite !omap_app, !app_length. cbn. rewrite decide_True by done. cbn. lia. }
  destruct (l_rounds s !! k) as [[rem'|]|]; [naive_solver| |naive_solver].
  destruct Hr as (E1&_&_). rewrite Et, !map_app in E1. rewrite Hp in E1.
  apply Permutation_length in E1. rewrite !app_length, !map_length in E1. apply nil_length_inv. lia.
Qed.
