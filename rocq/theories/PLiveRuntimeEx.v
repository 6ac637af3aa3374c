(** * Fair executions of the runtime metrics (C122) *)
From Verif Require Import PFair PRuntime SLive5.

Definition lr_opts : ropts := ROpts 5 false false false true false false.
Definition lr_read : readings := Readings 0 0 0 0 0 f0 0 0 3 0 None.
(** one poller is started and reports; if [stop], caller 7 stops it after its first report *)
Definition lr_next (stop : bool) (n : nat) (s : rst) : option ract * rst :=
  match rs_pollers s with
  | [] => (Some RStart, RSt [PNew] (rs_wait s))
  | [PNew] => (Some (RTicker 0), RSt [PSelect] (rs_wait s))
  | [PSelect] => if stop && (5 <=? n)%nat then (Some (RStop 7 0), RSt [PAck] [7%nat]) else (Some (RTick 0 lr_read), RSt [PReport (report lr_opts lr_read)] (rs_wait s))
  | [PReport ((k, v) :: l)] => (Some (RGauge 0 k v), RSt [PReport l] (rs_wait s))
  | [PReport []] => (Some (RReported 0), RSt [PSelect] (rs_wait s))
  | [PAck] => (Some (RStopped 7 0), RSt [PGone] [])
  | _ => (None, s)
  end.
Definition lr_run (stop : bool) : exec rst ract := run (lr_next stop) rst0.
(** the states that come up *)
Definition lr_state (s : rst) : Prop := s = rst0 ∨ s = RSt [PNew] [] ∨ s = RSt [PSelect] [] ∨ s = RSt [PReport (report lr_opts lr_read)] [] ∨ s = RSt [PReport []] [] ∨
  s = RSt [PAck] [7%nat] ∨ s = RSt [PGone] [].
Lemma lr_states stop n : lr_state (run_at (lr_next stop) rst0 n).
Proof.
  apply (run_inv (lr_next stop) rst0 (λ _ s, lr_state s) 0); [by left| |lia]. clear n. intros n s _.
  intros [-> |[-> |[-> |[-> |[-> |[-> | ->]]]]]]; unfold lr_state, lr_next; cbn; try tauto. destruct (stop && _); tauto.
Qed.
Lemma lr_exec stop : is_exec (rok lr_opts) (lr_run stop).
Proof.
  apply run_exec. intros n. generalize (run_at (lr_next stop) rst0 n), (lr_states stop n). intros s.
  intros [-> |[-> |[-> |[-> |[-> |[-> | ->]]]]]]; unfold lr_next, rok; cbn [rs_pollers rst0 fst snd rs_wait].
  - apply (Rt_start lr_opts rst0).
  - by apply (Rt_ticker lr_opts (RSt [PNew] [])).
  - destruct (stop && (5 <=? n)%nat); cbn [fst snd].
    + apply (Rt_stop lr_opts (RSt [PSelect] [])); [done|]. intros H. by apply elem_of_nil in H.
    + by apply (Rt_tick lr_opts (RSt [PSelect] []) 0 lr_read).
  - change (report lr_opts lr_read) with [("num_goroutines", fofZ 3)].
    by apply (Rt_gauge lr_opts (RSt [PReport [("num_goroutines", fofZ 3)]] []) 0 "num_goroutines" (fofZ 3) []).
  - by apply (Rt_reported lr_opts (RSt [PReport []] [])).
  - apply (Rt_stopped lr_opts (RSt [PAck] [7%nat]) 7 0); [done|]. by left.
  - done.
Qed.
(** nothing is possible for pollers that do not exist *)
Lemma lr_other stop n p : (0 < p)%nat → rs_pollers (run_at (lr_next stop) rst0 n) !! p = None.
Proof.
  intros Hp. generalize (run_at (lr_next stop) rst0 n), (lr_states stop n). intros s.
  intros [-> |[-> |[-> |[-> |[-> |[-> | ->]]]]]]; cbn; try done; by destruct p as [|[]]; [lia|..].
Qed.

(** ** It reports for ever *)
Definition lr_turn (k : nat) (s : rst) : Prop :=
  match k with 0%nat => s = RSt [PSelect] [] | 1%nat => s = RSt [PReport (report lr_opts lr_read)] [] | _ => s = RSt [PReport []] [] end.
Lemma lr_turns n : lr_turn (n mod 3) (run_at (lr_next false) rst0 (2 + n)).
Proof.
  assert (H : ∀ k, lr_turn 0 (run_at (lr_next false) rst0 (2 + 3 * k))).
  { induction k as [|k IH]; [done|]. replace (2 + 3 * S k)%nat with (S (S (S (2 + 3 * k)))) by lia. cbn [lr_turn] in IH. cbn [run_at]. by rewrite IH. }
  pose proof (Nat.div_mod n 3 ltac:(lia)) as E. pose proof (Nat.mod_upper_bound n 3 ltac:(lia)) as B. specialize (H (n / 3)%nat). cbn [lr_turn] in H.
  remember (n mod 3)%nat as r eqn:Er. clear Er. remember (n / 3)%nat as k eqn:Ek. clear Ek. subst n.
  destruct r as [|[|[|]]]; [|..|lia].
  - by rewrite Nat.add_0_r.
  - replace (2 + (3 * k + 1))%nat with (S (2 + 3 * k)) by lia. cbn [run_at]. by rewrite H.
  - replace (2 + (3 * k + 2))%nat with (S (S (2 + 3 * k))) by lia. cbn [run_at]. by rewrite H.
Qed.
Lemma lr_again k n : (k < 3)%nat → ∃ m, (n ≤ m)%nat ∧ lr_turn k (run_at (lr_next false) rst0 m).
Proof.
  intros Hk. exists (2 + (3 * n + k))%nat. split; [lia|]. pose proof (lr_turns (3 * n + k)) as H.
  replace ((3 * n + k) mod 3)%nat with k in H; [done|]. rewrite Nat.add_comm, Nat.mul_comm, Nat.mod_add by lia. symmetry. by apply Nat.mod_small.
Qed.
Lemma lr_fair : runtime_fair lr_opts (lr_run false).
Proof.
  constructor.
  - intros p. apply weak_impossible. intros n. destruct (lr_again 0 n ltac:(lia)) as (m&Hm&E). exists m. split; [done|].
    intros (a&s'&->&H). cbn in H. rewrite E in H. unfold rok in H. inversion H as [|s1 q Eq Hi| | | | | |]; subst. cbn in Eq. by destruct p as [|[]].
  - intros p. destruct p as [|p].
    + apply strong_happens. intros n. destruct (lr_again 0 n ltac:(lia)) as (m&Hm&E). exists m. split; [done|]. exists (RTick 0 lr_read). split; [|by eexists].
      cbn. by rewrite E.
    + apply (strong_impossible _ _ _ 0). intros n _ (a&s'&(r&->)&H). unfold rok in H. inversion H as [| | |s1 q r1 Eq| | | |]; subst.
      cbn in Eq. rewrite lr_other in Eq by lia. done.
  - intros p. apply weak_impossible. intros n. destruct (lr_again 0 n ltac:(lia)) as (m&Hm&E). exists m. split; [done|].
    intros (a&s'&Ha&H). cbn in H. rewrite E in H. unfold rok in H. destruct Ha as [(k&v&->)| ->]; inversion H as [| | | |s1 q k1 v1 l Eq|s1 q Eq| |]; subst; cbn in Eq; by destruct p as [|[]].
  - intros i. apply weak_impossible. intros n. destruct (lr_again 0 n ltac:(lia)) as (m&Hm&E). exists m. split; [done|].
    intros (a&s'&(p&->)&H). cbn in H. rewrite E in H. unfold rok in H. inversion H as [| | | | | | |s1 j q Eq Hi]; subst. cbn in Hi. by apply elem_of_nil in Hi.
Qed.
Lemma lr_never_stops p : never (is_stop_of p) (lr_run false).
Proof.
  intros n (a&Ha&(i&->)). cbn in Ha. revert Ha. generalize (run_at (lr_next false) rst0 n), (lr_states false n). intros s.
  intros [-> |[-> |[-> |[-> |[-> |[-> | ->]]]]]]; unfold lr_next; cbn; done.
Qed.

(** ** It reports once and is stopped *)
Lemma lr_S stop n : run_at (lr_next stop) rst0 (S n) = (lr_next stop n (run_at (lr_next stop) rst0 n)).2.
Proof. reflexivity. Qed.
Lemma lr_gone n : run_at (lr_next true) rst0 (7 + n) = RSt [PGone] [].
Proof. induction n as [|n IH]; [vm_compute; reflexivity|]. rewrite Nat.add_succ_r, lr_S, IH. done. Qed.
Lemma lr_gone_at n : (7 ≤ n)%nat → run_at (lr_next true) rst0 n = RSt [PGone] [].
Proof. intros H. replace n with (7 + (n - 7))%nat by lia. apply lr_gone. Qed.
Lemma lr_gone_nothing n (P : ract → Prop) : (7 ≤ n)%nat → (∀ a, P a → a ≠ RStart) → ¬ possible (rok lr_opts) P (x_at (lr_run true) n).
Proof.
  intros Hn HP (a&s'&Ha&H). cbn in H. rewrite lr_gone_at in H by done. unfold rok in H. specialize (HP _ Ha).
  inversion H as [|s1 q Eq Hi|s1 q Eq Hi|s1 q r Eq|s1 q k v l Eq|s1 q Eq|s1 j q Eq Hi|s1 j q Eq Hi]; subst; [done|..]; cbn in Eq; by destruct q as [|[]].
Qed.
Lemma lr_stop_fair : runtime_fair lr_opts (lr_run true) ∧ ∀ i, keeps_stopping lr_opts i (lr_run true).
Proof.
  assert (W : ∀ P : ract → Prop, (∀ a, P a → a ≠ RStart) → weakly_fair (rok lr_opts) P (lr_run true)).
  { intros P HP. apply weak_impossible. intros n. exists (7 + n)%nat. split; [lia|]. apply lr_gone_nothing; [lia|done]. }
  assert (S' : ∀ P : ract → Prop, (∀ a, P a → a ≠ RStart) → strongly_fair (rok lr_opts) P (lr_run true)).
  { intros P HP. apply (strong_impossible _ _ _ 7). intros n Hn. by apply lr_gone_nothing. }
  split; [constructor|]; intros; first [apply W | apply S'].
  - by intros a ->.
  - by intros a (r&->).
  - by intros a [(k&v&->)| ->].
  - by intros a (q&->).
  - by intros a (q&->).
Qed.
Lemma lr_stop_acts : acts (lr_run true) 7 = [RStart; RTicker 0; RTick 0 lr_read; RGauge 0 "num_goroutines" (fofZ 3); RReported 0; RStop 7 0; RStopped 7 0].
Proof. vm_compute. reflexivity. Qed.
Lemma lr_not_others : never (is_stop_not_by 7) (lr_run true).
Proof.
  intros n (a&Ha&(j&q&Hj&->)). cbn in Ha. revert Ha. generalize (run_at (lr_next true) rst0 n), (lr_states true n). intros s.
  intros [-> |[-> |[-> |[-> |[-> |[-> | ->]]]]]]; unfold lr_next; cbn; try done. destruct (match n with S (S (S (S (S _)))) => true | _ => false end); cbn; congruence.
Qed.
