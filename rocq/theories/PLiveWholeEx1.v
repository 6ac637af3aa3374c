(** * A process that emits once and is asked for its metrics again and again (C131) *)
From Verif Require Import SLive3 PFair PAgg PPolling PWireEx PNum2 PProcess3.

(** rounds of nineteen moments: number of the round, and moment in it *)
Fixpoint ru (k : nat) : nat * nat :=
  match k with
  | O => (0, 0)
  | S k => match ru k with (c, 18) => (S c, 0) | (c, r) => (c, S r) end
  end%nat.
Lemma ru_round c : ru (c * 19) = (c, 0)%nat.
Proof. induction c as [|c IH]; [done|]. change (S c * 19)%nat with (S (S (S (S (S (S (S (S (S (S (S (S (S (S (S (S (S (S (S (c * 19)))))))))))))))))))). cbn [ru]. by rewrite IH. Qed.
Lemma ru_in c r : (r < 19)%nat → ru (r + c * 19) = (c, r).
Proof. intros Hr. assert (E := ru_round c). do 19 (destruct r as [|r]; [cbn [ru Nat.add]; by rewrite E|]). lia. Qed.
Lemma ru_lt k : ((ru k).2 < 19)%nat.
Proof. induction k as [|k IH]; [cbn; lia|]. cbn [ru]. destruct (ru k) as [c r]. cbn in IH. do 19 (destruct r as [|r]; [cbn; lia|]). lia. Qed.
Lemma ru_le k n : (n ≤ k)%nat → ((ru n).1 ≤ (ru k).1)%nat.
Proof.
  induction 1 as [|k _ IH]; [done|]. etrans; [exact IH|]. cbn [ru]. destruct (ru k) as [c r]. do 19 (try destruct r as [|r]); cbn; lia.
Qed.
Lemma ru_again n r : (r < 19)%nat → ∃ k, (n ≤ k)%nat ∧ (ru k).2 = r.
Proof. intros Hr. exists (r + n * 19)%nat. split; [lia|]. by rewrite ru_in. Qed.
Lemma ru_S n : ru (S n) = match ru n with (c, 18) => (S c, 0) | (c, r) => (c, S r) end%nat.
Proof. done. Qed.

Definition u_cmd : cmd := CEvent "job" "e".
Definition u_call : scall := SCall (λ _, u_cmd) (λ _, None).
Section Process.
Context (d retain t : Z) (a0 a1 : aggr).
Context (H0 : new_aggregator d retain = Ok a0) (H1 : agg_step a0 t (OpCmd u_cmd) = Ok (a1, None)) (H2 : agg_step a1 t OpRead = Ok (a1, Some (a_ints a1))).
Context (Hd : 0 < d) (Hr : d ≤ retain).
Definition u_sinks : list ksink := [KPoll (pst0 d retain)].
Local Definition st (at_ : nat) (prog : list scall) q lp a wr : proc := Proc [Caller at_ prog] [KPoll (PSt q lp a wr [] [])].
Definition z_at (n : nat) : proc :=
  match ru n with
  | (0, 0) => st 0 [u_call] [] PRun a0 []
  | (0, 1) => st 1 [u_call] [u_cmd] PRun a0 []
  | (0, 2) => st 0 [] [u_cmd] PRun a0 []
  | (_, 4) => st 0 [] [] PRun a1 [9]
  | (_, 5) => st 0 [] [] (PReply 9 (a_ints a1)) a1 []
  | _ => st 0 [] [] PRun a1 []
  end%nat.
Definition z_act (n : nat) : option qact :=
  match ru n with
  | (0, 0) => Some (QEmit 0 0 u_cmd None)
  | (0, 1) => Some (QNext 0)
  | (0, 2) => Some (QPoll 0 (PTake t u_cmd))
  | (_, 3) => Some (QPoll 0 (PReadCall 9))
  | (_, 4) => Some (QPoll 0 (PReadTake 9 t))
  | (_, 5) => Some (QPoll 0 (PReadRet 9 (a_ints a1)))
  | _ => None
  end%nat.
Definition z_x : exec proc qact := Exec z_at z_act.

Local Lemma alive at_ prog q lp a wr : lp ≠ PCrashed → q_alive (st at_ prog q lp a wr).
Proof using. intros H. constructor; [exact H|constructor]. Qed.
Lemma z_exec : is_exec qstep z_x.
Proof using All.
  intros n. cbn [x_at x_act z_x]. unfold z_at, z_act. rewrite ru_S. destruct (ru n) as [c r] eqn:En.
  pose proof (ru_lt n) as Hl. rewrite En in Hl. cbn in Hl.
  assert (R3 : qstep (st 0 [] [] PRun a1 []) (QPoll 0 (PReadCall 9)) (st 0 [] [] PRun a1 [9])%nat).
  { apply (Qs_poll [Caller 0 []] [KPoll (PSt [] PRun a1 [] [] [])] 0 (PReadCall 9) (PSt [] PRun a1 [] [] []) (PSt [] PRun a1 [9]%nat [] [])); [by apply alive|done|done|].
    apply (Ps_read_call (PSt [] PRun a1 [] [] [])); [done|]. split; [apply not_elem_of_nil|]. split; [apply not_elem_of_nil|]. split; [apply not_elem_of_nil|done]. }
  assert (R4 : qstep (st 0 [] [] PRun a1 [9%nat]) (QPoll 0 (PReadTake 9 t)) (st 0 [] [] (PReply 9 (a_ints a1)) a1 [])%nat).
  { apply (Qs_poll [Caller 0 []] [KPoll (PSt [] PRun a1 [9]%nat [] [])] 0 (PReadTake 9 t) (PSt [] PRun a1 [9]%nat [] []) (PSt [] (PReply 9 (a_ints a1)) a1 [] [] [])); [by apply alive|done|done|].
    apply (Ps_read_take [] a1 a1 (a_ints a1) [9]%nat [] [] 9 t); [by left|exact H2]. }
  assert (R5 : qstep (st 0 [] [] (PReply 9 (a_ints a1)) a1 []) (QPoll 0 (PReadRet 9 (a_ints a1))) (st 0 [] [] PRun a1 [])%nat).
  { apply (Qs_poll [Caller 0 []] [KPoll (PSt [] (PReply 9 (a_ints a1)) a1 [] [] [])] 0 (PReadRet 9 (a_ints a1)) (PSt [] (PReply 9 (a_ints a1)) a1 [] [] []) (PSt [] PRun a1 [] [] [])); [by apply alive|done|done|].
    constructor. }
  destruct c as [|c].
  - do 6 (try destruct r as [|r]); [| | |exact R3|exact R4|exact R5|].
    + apply (Qs_emit [Caller 0 [u_call]] [KPoll (PSt [] PRun a0 [] [] [])] 0 0 u_call [] (KPoll (PSt [] PRun a0 [] [] [])) (KPoll (PSt [u_cmd] PRun a0 [] [] []))); [by apply alive|done|done|].
      constructor. by apply (Ps_emit (PSt [] PRun a0 [] [] [])).
    + apply (Qs_next [Caller 1 [u_call]] [KPoll (PSt [u_cmd] PRun a0 [] [] [])] 0 u_call []); [by apply alive|done].
    + apply (Qs_poll [Caller 0 []] [KPoll (PSt [u_cmd] PRun a0 [] [] [])] 0 (PTake t u_cmd) (PSt [u_cmd] PRun a0 [] [] []) (PSt [] PRun a1 [] [] [])); [by apply alive|done|done|].
      by eapply Ps_take.
    + do 13 (try destruct r as [|r]); try lia; done.
  - do 6 (try destruct r as [|r]); [done|done|done|exact R3|exact R4|exact R5|]. do 13 (try destruct r as [|r]); try lia; done.
Qed.
(** what is possible from then on *)
Local Lemma later n b s' : (3 ≤ n)%nat → qstep (z_at n) b s' → match b with QPoll 0 (PReadCall _) | QPoll 0 (PShutCall _) | QPoll 0 (PTick _) | QPoll 0 (PReadRet _ _) => True | QPoll 0 (PReadTake i _) => i = 9%nat | _ => False end.
Proof using.
  intros Hn St. assert (E : ∃ lp wr, z_at n = st 0 [] [] lp a1 wr ∧ (wr = [] ∨ wr = [9%nat])).
  { unfold z_at. pose proof (ru_lt n) as Hl. destruct (ru n) as [c r] eqn:En.
    assert (Hc : c ≠ 0%nat ∨ (3 ≤ r)%nat).
    { destruct c as [|c]; [right|by left]. destruct (decide (3 ≤ r)%nat) as [|Hlt]; [done|]. exfalso.
      assert (∃ e, n = (3 + e)%nat) as (e&->) by (exists (n - 3)%nat; lia). pose proof (ru_le (3 + e) 3 ltac:(lia)) as _. clear St.
      assert (Hge : ∀ e, (ru (3 + e)).1 ≠ 0%nat ∨ (3 ≤ (ru (3 + e)).2)%nat).
      { clear. induction e as [|e IH]; [right; cbn; lia|]. rewrite Nat.add_succ_r, ru_S. destruct (ru (3 + e)) as [c r]. cbn [fst snd] in IH.
        do 19 (try destruct r as [|r]); cbn [fst snd]; lia. }
      specialize (Hge e). rewrite En in Hge. cbn in Hge. lia. }
    destruct c as [|c].
    - do 3 (destruct r as [|r]; [lia|]). do 2 (try destruct r as [|r]); eauto. destruct r; eauto.
    - do 6 (try destruct r as [|r]); eauto. }
  destruct E as (lp&wr&E&Hw). rewrite E in St. remember (st 0 [] [] lp a1 wr) as s eqn:Es.
  destruct St as [cs sk g at_ c' rest y y' Ha Hg Hk Ht|cs sk g c' rest Ha Hg|cs sk k b p p' Ha Hk Hn' Hp|cs sk k b o' l l' Ha Hk Hn' Hp|cs sk k b lc' l l' Ha Hk Hn' Hp|cs sk k b l l' Ha Hk Hn' Hp]; injection Es as -> ->.
  - destruct g as [|g]; done.
  - destruct g as [|g]; done.
  - destruct k as [|k]; cbn in Hk; [|done]. injection Hk as <-. inversion Hp; subst; try done.
    all: try (destruct Hw as [-> | ->]; [by match goal with H : _ ∈ [] |- _ => apply not_elem_of_nil in H end|]; by match goal with H : _ ∈ [_] |- _ => apply elem_of_list_singleton in H end).
    all: match goal with H : _ ∈ [] |- _ => by apply not_elem_of_nil in H end.
  - destruct k as [|k]; cbn in Hk; done.
  - destruct k as [|k]; cbn in Hk; done.
  - destruct k as [|k]; cbn in Hk; done.
Qed.
Lemma z_process : process_exec [[u_call]] u_sinks z_x ∧ process_fair z_x ∧ never stops_sink z_x.
Proof using All.
  split; [|split].
  - constructor; [apply z_exec| | |].
    + cbn. unfold z_at, proc0, u_sinks, st, pst0. cbn. by rewrite H0.
    + repeat constructor.
    + constructor; [by exists d, retain|constructor].
  - assert (Hno : ∀ P : qact → Prop, (∀ n b s', (3 ≤ n)%nat → qstep (z_at n) b s' → ¬ P b) → ∀ n, (3 ≤ n)%nat → ¬ possible qstep P (x_at z_x n)).
    { intros P H n Hn (b&s'&Hp&Hst). by eapply H. }
    assert (Hs : ∀ P : qact → Prop, (∀ n b s', (3 ≤ n)%nat → qstep (z_at n) b s' → ¬ P b) → strongly_fair qstep P z_x).
    { intros P H. by apply (strong_impossible _ _ _ 3), Hno. }
    assert (Hw : ∀ P : qact → Prop, (∀ n b s', (3 ≤ n)%nat → qstep (z_at n) b s' → ¬ P b) → weakly_fair qstep P z_x).
    { intros P H. apply weak_impossible. intros n. exists (max n 3). split; [lia|]. apply Hno; [done|lia]. }
    constructor.
    + intros g. apply Hs. intros n b s' Hn St%later; [|done]. destruct b as [| |? []| | |]; cbn; intros Hq; try done; by destruct k.
    + intros k. apply Hs. intros n b s' Hn St%later; [|done]. destruct b as [| |[] []| | |]; intros Hq; try done; destruct Hq; done.
    + intros k i. destruct (decide (k = 0%nat ∧ i = 9%nat)) as [[-> ->]|Hne].
      * apply strong_happens. intros n. exists (4 + n * 19)%nat. split; [lia|]. exists (QPoll 0 (PReadTake 9 t)). split; [|done].
        cbn [x_act z_x]. unfold z_act. rewrite ru_in by lia. by destruct n.
      * apply Hs. intros n b s' Hn St%later; [|done]. destruct b as [| |[] []| | |]; intros Hq; try done; destruct Hq as [? Hq]; try done. cbn in Hq. subst. by destruct Hne.
    + intros k. apply Hs. intros n b s' Hn St%later; [|done]. destruct b as [| |[] []| | |]; intros Hq; try done; destruct Hq; done.
    + intros k. destruct (decide (k = 0%nat)) as [->|Hne].
      * apply weak_happens. intros n. exists (5 + n * 19)%nat. split; [lia|]. exists (QPoll 0 (PReadRet 9 (a_ints a1))). split; [|done].
        cbn [x_act z_x]. unfold z_act. rewrite ru_in by lia. by destruct n.
      * apply Hw. intros n b s' Hn St%later; [|done]. destruct b as [| |[] []| | |]; intros Hq; try done; destruct Hq; congruence || done.
    + intros k. apply Hw. intros n b s' Hn St%later; [|done]. destruct b as [| |[] []| | |]; intros Hq; try done; destruct Hq; done.
    + intros k. apply Hw. intros n b s' Hn St%later; [|done]. destruct b as [| |[] []| | |]; intros Hq; try done; destruct Hq; done.
    + intros k. apply (strong_impossible _ _ _ 3). intros n Hn (b&s'&Hq&_&St). apply later in St; [|done]. revert Hq. destruct b as [| |[] []| | |]; intros Hq; try done; destruct Hq; done.
    + intros k. apply Hw. intros n b s' Hn St%later; [|done]. destruct b as [| |[] []| | |]; intros Hq; try done; destruct Hq; done.
    + intros k. apply Hw. intros n b s' Hn St%later; [|done]. destruct b as [| |[] []| | |]; intros Hq; try done; destruct Hq; done.
    + intros k. apply Hw. intros n b s' Hn St%later; [|done]. destruct b as [| |[] []| | |]; intros Hq; try done; destruct Hq; done.
    + intros k. apply Hw. intros n b s' Hn St%later; [|done]. destruct b as [| |[] []| | |]; intros Hq; try done; destruct Hq; done.
  - intros n (b&Hb&Hq). cbn [x_act z_x] in Hb. unfold z_act in Hb. destruct (ru n) as [c r]. destruct c as [|c]; do 6 (try destruct r as [|r]); simplify_eq; done.
Qed.

(** what its loop has done *)
Definition u_ops (n : nat) : list (Z * aop) :=
  match ru n with
  | (0, 2) => [(t, OpCmd u_cmd)] | (_, 4) => [(t, OpRead)] | _ => []
  end%nat.
Lemma z_ops n : poll_history (poll_part 0 (acts z_x (S n))) = poll_history (poll_part 0 (acts z_x n)) ++ u_ops n.
Proof using.
  rewrite acts_S. unfold poll_part, poll_history. rewrite !omap_app. f_equal. cbn [x_act z_x]. unfold z_act, u_ops.
  destruct (ru n) as [c r]. destruct c as [|c]; do 6 (try destruct r as [|r]); done.
Qed.
Definition u_hist (n : nat) : list (Z * aop) :=
  let '(c, r) := ru n in
  match c, r with
  | 0, 0 | 0, 1 | 0, 2 => []
  | _, _ => (t, OpCmd u_cmd) :: replicate (if decide (5 ≤ r) then S c else c) (t, OpRead)
  end%nat.
Lemma u_hist_S n : u_hist (S n) = u_hist n ++ u_ops n.
Proof using.
  unfold u_hist, u_ops. rewrite ru_S. pose proof (ru_lt n) as Hl. destruct (ru n) as [c r]. cbn in Hl.
  assert (Es : ∀ c, (t, OpCmd u_cmd) :: replicate (S c) (t, OpRead) = ((t, OpCmd u_cmd) :: replicate c (t, OpRead)) ++ [(t, OpRead)]) by (intros; by rewrite replicate_S_end).
  destruct c as [|c]; do 19 (try destruct r as [|r]); try lia; cbv iota beta;
    rewrite ?decide_True by lia; rewrite ?decide_False by lia; rewrite ?app_nil_r; try done; apply Es.
Qed.
Lemma z_hist n : poll_history (poll_part 0 (acts z_x n)) = u_hist n.
Proof using. induction n as [|n IH]; [done|]. by rewrite z_ops, IH, u_hist_S. Qed.
Lemma u_hist_shape n : u_hist n = [] ∨ ∃ c, u_hist n = (t, OpCmd u_cmd) :: replicate c (t, OpRead).
Proof using. unfold u_hist. destruct (ru n) as [[|c] r]; [|by right; eexists]. destruct r as [|[|[|r]]]; [by left..|by right; eexists]. Qed.
End Process.
