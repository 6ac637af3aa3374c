(** * Proofs: one call to a stream whose sinks write logs *)
From Verif Require Import SLog PHealth PHealth2 PHealth3 PHealth4 PApi PWriter PWire2 PLog.
Local Arguments error_text : simpl never.

(** ** The worlds in between *)
Lemma wrap_good w e st : good w → holds w e → good (wrap_err w e st).1.
Proof.
  intros Hg Hh. pose proof (gd_wf _ Hg) as Hwf. apply (good_step w); [done| |by apply wrap_le|].
  - apply (quiet_wf w); [done|apply wrap_quiet|..]; destruct e; cbn; try apply Hwf;
      [intros l m H; apply (wf_maps _ Hwf) in H; lia|intros l m H; apply (wf_maps _ Hwf) in H; lia|..];
      intros l m; (destruct (decide (l = w_next w)) as [->|]; [lia|]); rewrite lookup_insert_ne by done; intros H; apply (wf_errs _ Hwf) in H; lia.
  - intros l o [?|[? ->]]%wrap_new; eauto.
Qed.
Lemma merged_good w st jb inst : good w → good (merged_key_values w st jb inst).1.
Proof.
  intros Hg. pose proof (gd_wf _ Hg) as Hwf. pose proof (merged_quiet w st jb inst) as Q. pose proof (merged_next w st jb inst) as [N1 N2].
  destruct (merged_key_values w st jb inst) as [w1 all] eqn:E. destruct (merged_same _ _ _ _ _ _ E) as [E1 _]. cbn in *.
  apply (good_step w); [done| |by apply errs_le_eq|].
  - apply (quiet_wf w); [done..| |].
    + intros l m H. destruct (N2 _ _ H) as [H1|]; [|done]. apply (wf_maps _ Hwf) in H1. lia.
    + rewrite E1. intros l m H. apply (wf_errs _ Hwf) in H. lia.
  - rewrite E1. eauto.
Qed.
Lemma text_of_ext w w' e t : w_errs w' = w_errs w → text_of w e t → text_of w' e t.
Proof. intros E H. induction H; [constructor|econstructor..]; rewrite ?E; eauto. Qed.
Lemma wrap_text w e st w0 e' w1 t : good w → holds w e → wrap_err w e st = (w0, e') → good w1 → w_errs w1 = w_errs w0 →
  error_text w1 e' = Ok t ↔ text_of w e t.
Proof.
  intros Hg Hh Hw Hg1 He. assert (good w0) as Hg0 by (pose proof (wrap_good w e st Hg Hh) as H; by rewrite Hw in H).
  assert (∀ x, (x = ENil ∨ ∃ i u, x = EUser i u) → (w0, e') = (bump (set_errs w (<[w_next w:=OUnmuted x st false]> (w_errs w))), EUnmuted (w_next w)) →
    error_text w1 e' = Ok t ↔ text_of w x t) as Hnew.
  { intros x Hx [= -> ->]. rewrite text_iff; [|done|]; cbn in He.
    - assert (w_errs w1 !! w_next w = Some (OUnmuted x st false)) as Hl by (by rewrite He, lookup_insert). split.
      + inversion 1 as [| |? y ? ? ? Hy Hy2]; subst. rewrite Hl in Hy. injection Hy as <- <- <-.
        destruct Hx as [->|(i & u & ->)]; inversion Hy2; subst; constructor.
      + intros H. econstructor; [done|]. destruct Hx as [->|(i & u & ->)]; inversion H; subst; constructor.
    - cbn. rewrite He, lookup_insert. eauto. }
  destruct e as [|i u|l|l]; cbn in Hw.
  - apply Hnew; [by left|done].
  - apply Hnew; [right; eauto|done].
  - injection Hw as <- <-. rewrite text_iff; [|done|cbn in *; by rewrite He]. split; by apply text_of_ext.
  - injection Hw as <- <-. rewrite text_iff; [|done|cbn in *; by rewrite He]. split; by apply text_of_ext.
Qed.
Lemma merged_nonempty w st jb inst w1 l : merged_key_values w st jb inst = (w1, Some l) → kvs w1 (Some l) ≠ ∅.
Proof.
  intros H E. pose proof (λ key, merged_view w st jb inst _ _ _ w1 (Some l) key (Permutation_refl _) (Permutation_refl _) (Permutation_refl _) H) as V.
  rewrite E in V. assert (∀ key, lookup_levels (kvs w (st_kvs st)) (kvs w (jb_kvs jb)) (kvs w inst) key = None) as N by (intros key; rewrite <-V; apply lookup_empty).
  assert (kvs w inst = ∅) as N1. { apply map_eq. intros key. specialize (N key). unfold lookup_levels in N. rewrite lookup_empty. by destruct (kvs w inst !! key). }
  assert (kvs w (jb_kvs jb) = ∅) as N2. { apply map_eq. intros key. specialize (N key). unfold lookup_levels in N. rewrite lookup_empty. rewrite N1, lookup_empty in N. by destruct (kvs w (jb_kvs jb) !! key). }
  assert (kvs w (st_kvs st) = ∅) as N3. { apply map_eq. intros key. specialize (N key). unfold lookup_levels in N. rewrite lookup_empty. by rewrite N1, N2, !lookup_empty in N. }
  unfold merged_key_values, merged_key_values_ord in H. rewrite N1, N2, N3 in H.
  rewrite !bool_decide_eq_false_2 in H by (intros X; by apply X). cbn in H. done.
Qed.

(** ** What [prep] does *)
Lemma prep_args jb w a w0 args fin : prep jb w a = (w0, args, fin) → args_ok args ∧
  (∀ w, w_log (fin w) = w_log w) ∧ w_log w0 = w_log w ∧ w_streams w0 = w_streams w ∧ w_jobs w0 = w_jobs w ∧ (∀ m, kvs w0 m = kvs w m).
Proof.
  intros H. destruct a; cbn in H; injection H as <- <- <-; (split; [intros w'; cbn; repeat split|]); (split; [try done; intros w'; apply mark_log|]); try done.
  all: by destruct e.
Qed.
Definition asks (jb : job) (w : world) (a : api) : option errv :=
  match a with ApiEventErr _ _ e st | ApiEventErrKv _ _ e _ st => Some (wrap_err w e st).2 | _ => None end.
Lemma prep_reads jb w a w0 args fin : prep jb w a = (w0, args, fin) → ∀ w', reads (args w').2 = asks jb w a.
Proof. intros H. destruct a; cbn in H; injection H as <- <- <-; done. Qed.
Lemma prep_good jb w a w0 args fin : prep jb w a = (w0, args, fin) → good w → api_can w a → good w0.
Proof. intros H Hg Hc. destruct a; cbn in H; injection H as <- <- <-; try done; by apply wrap_good. Qed.
Lemma asks_text jb w a w0 args fin e w1 t : prep jb w a = (w0, args, fin) → good w → api_can w a → err_of a = Some e →
  good w1 → w_errs w1 = w_errs w0 →
  ∃ e', asks jb w a = Some e' ∧ (error_text w1 e' = Ok t ↔ text_of w e t).
Proof.
  intros H Hg Hc He Hg1 E. destruct a; cbn in He; try done; injection He as ->; cbn in H; injection H as <- <- <-; cbn in Hc |- *.
  all: eexists; (split; [done|]); eapply wrap_text; [done|done|apply surjective_pairing|done|done].
Qed.
Lemma asks_none jb w a : err_of a = None → asks jb w a = None.
Proof. by destruct a. Qed.

(** ** When a call panics *)
Lemma readable_dec w r : readable w r ∨ ∃ e, r = Some e ∧ ∀ t, error_text w e ≠ Ok t.
Proof.
  destruct r as [e|]; [|by left]. destruct (error_text w e) as [t|x] eqn:E; [left; exists t; done|right]. exists e. split; [done|]. intros t. by rewrite E.
Qed.
Lemma call_panics env s a j inst jb st : good (ls_w s) → api_can (ls_w s) a →
  SHealth.emission a = Some (j, inst) → w_jobs (ls_w s) !! j = Some jb → w_streams (ls_w s) !! jb_stream jb = Some st →
  ∃ s' b, l_step env s a = Ok (s', b) ∧
    (b = true ↔ ∃ e, err_of a = Some e ∧ ¬ has_text (ls_w s) e ∧ ∃ k, k ∈ st_sinks st ∧ is_writer env k).
Proof.
  intros Hg Hc He Hj Hst. destruct (prep jb (ls_w s) a) as [[w0 args] fin] eqn:Hp. destruct (merged_key_values w0 st jb inst) as [w1 all] eqn:Hm.
  destruct (step_prep env s a j inst jb st w0 args fin w1 all He Hj Hst Hp Hm) as [Hl _].
  destruct (prep_args _ _ _ _ _ _ Hp) as (Ha & _). pose proof (prep_reads _ _ _ _ _ _ Hp) as Hr. pose proof (prep_good _ _ _ _ _ _ Hp Hg Hc) as Hg0.
  assert (good w1) as Hg1 by (pose proof (merged_good w0 st jb inst Hg0) as G; by rewrite Hm in G).
  assert (w_errs w1 = w_errs w0) as E1 by (by destruct (merged_same _ _ _ _ _ _ Hm) as [? _]).
  destruct (l_loop env args jb all (st_sinks st) (LS w1 (ls_out s))) as [s1 b] eqn:Hlp.
  exists (if b then s1 else LS (fin (ls_w s1)) (ls_out s1)), b. split; [rewrite Hl; by destruct b|].
  destruct (readable_dec w1 (asks jb (ls_w s) a)) as [R|(e' & R1 & R2)].
  - pose proof (loop_fine env args jb all Ha _ Hr (st_sinks st) (LS w1 (ls_out s)) R) as F. rewrite Hlp in F. cbn in F. subst b. split; [done|].
    intros (e & He' & Hn & _). exfalso. apply Hn. destruct (asks_text jb (ls_w s) a w0 args fin e w1 "" Hp Hg Hc He' Hg1 E1) as (e2 & A1 & _).
    rewrite A1 in R. destruct R as [t Ht]. destruct (asks_text jb (ls_w s) a w0 args fin e w1 t Hp Hg Hc He' Hg1 E1) as (e3 & A2 & A3).
    exists t. apply A3. congruence.
  - destruct (err_of a) as [e|] eqn:Ee; [|by rewrite asks_none in R1].
    destruct (loop_unread env args jb all Ha _ Hr (st_sinks st) e' R1 (LS w1 (ls_out s)) s1 b R2 Hlp) as [I _]. rewrite I. split.
    + intros Hk. exists e. split; [done|]. split; [|done]. intros [t Ht].
      destruct (asks_text jb (ls_w s) a w0 args fin e w1 t Hp Hg Hc Ee Hg1 E1) as (e3 & A2 & A3). apply (R2 t). assert (e' = e3) as -> by congruence. by apply A3.
    + by intros (_ & _ & _ & Hk).
Qed.

(** ** What is written *)
Lemma sub_sat_int64 a b : in_int64 (sub_sat a b).
Proof. unfold in_int64, sub_sat. lia. Qed.
Lemma told_says (text : errv → string → Prop) w w' jb a p x : tells w w' jb a p → (∀ e, err_of a = Some e → text e x) → says text w w' jb a (as_emission p x).
Proof. intros H Hx. destruct H; cbn; try constructor; auto. Qed.
Lemma told_times w w' jb a p x n : tells w w' jb a p → int_times a →
  match as_emission p x with WTiming _ k | WComplete _ k => n = k | _ => False end → in_int64 n.
Proof. intros H Ht. destruct H; cbn in *; try done; intros ->; try done; apply sub_sat_int64. Qed.
Lemma line_ok env n name e m : env_ok env → (∀ k, match e with WTiming _ i | WComplete _ i => k = i | _ => False end → in_int64 k) →
  log_line env n name e m (writer_line (le_srt env) (le_g env) (le_ts env n) name e m (match m with Some m => le_ord env n m | None => [] end)).
Proof.
  intros [Hs Ho] Ht.
  destruct (thm_writer_line (le_srt env) (le_g env) (le_ts env n) name e m (match m with Some m => le_ord env n m | None => [] end) [] Hs) as (what & kvt & H1 & H2 & H3).
  - intros m' ->. apply Ho.
  - done.
  - exists what, kvt. split; [done|]. split; [done|]. unfold writer_emit in H3. cbn [app] in H3. exact (f_equal (λ l, hd "" l) H3).
Qed.
Lemma object_ok env n name e m : log_object env n name e m (compact <$> enc_emission (le_ff env) (le_ts env n) name e m).
Proof.
  split.
  - intros ev v -> Hf. pose proof (thm_json_nothing (le_ff env) (le_ts env n) name ev v m [] Hf) as H. unfold json_emit in H.
    by destruct (enc_emission _ _ _ _ _).
  - intros H1 H2 H3 H4 H5. destruct (thm_json_emit (le_ff env) (le_ts env n) name e m [] H1 H2 H3 H4 H5) as (t & v & k & J1 & J2 & J3 & J4).
    unfold json_emit in J1. exists t, v, k. destruct (enc_emission _ _ _ _ _); [|done]. cbn in *. injection J1 as ->. done.
Qed.

(** what the handling of a call writes is what it should *)
Lemma handled env w w' w1 st jb a inst n c o : env_ok env →
  (∀ (text : errv → string → Prop) x, (∀ e, err_of a = Some e → text e x) → says text w w' jb a (as_emission (c_what c) x)) →
  (∀ x n, match as_emission (c_what c) x with WTiming _ k | WComplete _ k => n = k | _ => False end → in_int64 n) →
  c_job c = jb_name jb → levels_map w st jb inst (given c) →
  match c_what c with PEventErr _ x _ => ∃ e0, err_of a = Some e0 ∧ ∀ t, error_text w1 x = Ok t ↔ text_of w e0 t | _ => err_of a = None end →
  handle env w1 n c = Ok o → logs env w w' st jb a inst n (c_sink c) o.
Proof.
  intros Henv Hsay Hit Hjb Hlv Hx Hh. unfold handle in Hh. unfold logs. destruct (le_kind env (c_sink c)); [| |by injection Hh].
  - destruct (match c_what c with PEventErr _ e _ => error_text w1 e | _ => Ok "" end) as [text|] eqn:E; [|done]. cbn in Hh. injection Hh as <-.
    exists (as_emission (c_what c) text), (given c). eexists. split; [|split; [done|split; [done|]]].
    + apply Hsay. intros e He. destruct (c_what c) as [|ev x b| | |]; [congruence| |congruence..].
      destruct Hx as (e0 & H1 & H2). rewrite He in H1. injection H1 as <-. by apply H2.
    + rewrite Hjb. apply line_ok; [done|]. apply Hit.
  - injection Hh as <-.
    exists (as_emission (c_what c) (match c_what c with PEventErr _ e _ => match error_text w1 e with Ok t => t | Crash _ => le_panic env end | _ => "" end)), (given c).
    split; [|split; [done|]].
    + apply Hsay. intros e He. destruct (c_what c) as [|ev x b| | |]; [congruence| |congruence..].
      destruct Hx as (e0 & H1 & H2). rewrite He in H1. injection H1 as <-. destruct (error_text w1 x) as [t|] eqn:Et.
      * left. by apply H2.
      * right. split; [|done]. intros [t Hh]. apply H2 in Hh. done.
    + rewrite Hjb. apply object_ok.
Qed.
Lemma given_levels w st jb inst w0 w1 all c : merged_key_values w0 st jb inst = (w1, all) → (∀ m, kvs w0 m = kvs w m) →
  c_kvs c = all → c_view c = kvs w1 all → levels_map w st jb inst (given c).
Proof.
  intros Hm Hk K1 K2. unfold given. rewrite K1. split.
  - destruct all as [l|]; cbn; [|done]. intros [= E]. rewrite K2 in E. by apply (merged_nonempty _ _ _ _ _ _ Hm).
  - intros key. rewrite <-!Hk.
    rewrite <-(merged_view w0 st jb inst _ _ _ w1 all key (Permutation_refl _) (Permutation_refl _) (Permutation_refl _) Hm).
    destruct all; cbn; [by rewrite K2|done].
Qed.
Lemma asked jb w a w0 args fin w1 w2 : prep jb w a = (w0, args, fin) → good w → api_can w a → good w1 → w_errs w1 = w_errs w0 →
  SHealth.emission a ≠ None →
  match (args w2).2 with PEventErr _ x _ => ∃ e0, err_of a = Some e0 ∧ ∀ t, error_text w1 x = Ok t ↔ text_of w e0 t | _ => err_of a = None end.
Proof.
  intros Hp Hg Hc Hg1 E1 He. pose proof (prep_reads _ _ _ _ _ _ Hp w2) as Hr. destruct (err_of a) as [e0|] eqn:Ee.
  - destruct (asks_text jb w a w0 args fin e0 w1 "" Hp Hg Hc Ee Hg1 E1) as (e3 & A2 & _). rewrite A2 in Hr.
    destruct ((args w2).2); try done. injection Hr as ->. exists e0. split; [done|]. intros t.
    destruct (asks_text jb w a w0 args fin e0 w1 t Hp Hg Hc Ee Hg1 E1) as (e4 & A4 & A5). assert (e3 = e4) as -> by congruence. done.
  - rewrite asks_none in Hr by done. by destruct ((args w2).2).
Qed.

Lemma call_logged env s a j inst jb st s' : good (ls_w s) → env_ok env → api_can (ls_w s) a → int_times a →
  SHealth.emission a = Some (j, inst) → w_jobs (ls_w s) !! j = Some jb → w_streams (ls_w s) !! jb_stream jb = Some st →
  l_step env s a = Ok (s', false) →
  api_step (ls_w s) a = Ok (ls_w s') ∧
  ∃ bs, length bs = length (st_sinks st) ∧ ls_out s' = ls_out s ++ writes_of (st_sinks st) bs ∧
    ∀ i k, st_sinks st !! i = Some k → ∃ b, bs !! i = Some b ∧
      logs env (ls_w s) (ls_w s') st jb a inst (length (w_log (ls_w s)) + i) k b.
Proof.
  intros Hg Henv Hc Hit He Hj Hst Hs. destruct (prep jb (ls_w s) a) as [[w0 args] fin] eqn:Hp. destruct (merged_key_values w0 st jb inst) as [w1 all] eqn:Hm.
  destruct (step_prep env s a j inst jb st w0 args fin w1 all He Hj Hst Hp Hm) as [Hl Hapi].
  destruct (prep_args _ _ _ _ _ _ Hp) as (Ha & Hfin & Hlog0 & Hs0 & Hj0 & Hk0). pose proof (prep_reads _ _ _ _ _ _ Hp) as Hr. pose proof (prep_good _ _ _ _ _ _ Hp Hg Hc) as Hg0.
  assert (good w1) as Hg1 by (pose proof (merged_good w0 st jb inst Hg0) as G; by rewrite Hm in G).
  destruct (merged_same _ _ _ _ _ _ Hm) as (E1 & _ & _ & _ & _ & _ & Hlog1).
  destruct (l_loop env args jb all (st_sinks st) (LS w1 (ls_out s))) as [s1 b] eqn:Hlp.
  rewrite Hl in Hs. destruct b; [done|]. injection Hs as <-. cbn [ls_w ls_out].
  destruct (loop_spec env args jb all Ha _ _ _ _ Hlp) as (cs & bs & L1 & L2 & L3 & L4 & L5 & L6). cbn [ls_w ls_out] in *.
  destruct (L6 eq_refl) as [L7 L8]. rewrite <-L8 in Hapi. split; [done|].
  destruct (emission_content _ _ _ _ _ _ (gd_wf _ Hg) He Hj Hst) as (w' & cs' & C1 & C2 & C3 & C4).
  rewrite Hapi in C1. injection C1 as <-. rewrite Hfin, L1, Hlog1, Hlog0 in C2. apply app_inv_head in C2 as <-.
  exists bs. split; [rewrite L2, <-L7, map_length; done|]. split; [by rewrite L3, L7|].
  intros i k Hi. rewrite <-L7 in Hi. rewrite list_lookup_fmap in Hi. destruct (cs !! i) as [c|] eqn:Hci; [|done]. cbn in Hi. injection Hi as <-.
  destruct (L5 _ _ Hci) as (K1 & K2 & K3 & K4 & o & K5 & K6). exists o. split; [done|].
  rewrite Forall_forall in C4. destruct (C4 c (elem_of_list_lookup_2 _ _ _ Hci)) as (D1 & D2 & D3). rewrite Hlog1, Hlog0 in K6.
  destruct K4 as [w2 K4].
  apply (handled env (ls_w s) _ w1 st jb a inst _ c o Henv); [..|done].
  - intros text x Hx. by apply told_says.
  - intros x n. by apply (told_times (ls_w s) (fin (ls_w s1)) jb a).
  - done.
  - by apply (given_levels _ _ _ _ w0 w1 all).
  - rewrite K4. by apply (asked jb (ls_w s) a w0 args fin w1 w2); [..|rewrite He].
Qed.
