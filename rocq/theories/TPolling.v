(** * Property theorems: the polling sink (C28-C31)

    [psteps (pst0 d retain) tr s]: the interleaving [tr] of emitters, ticks,
    readers, shutdowns and iterations of the aggregator goroutine leads a new
    sink to state [s]. *)
From Verif Require Import SPolling PPolling.

(** an interleaving used by the examples: two emits, two reads, a shutdown, and
    what is still possible afterwards *)
Definition ex_i1 : ia := ia_apply (new_ia 60) (CEvent "j" "e").
Definition ex_i2 : ia := ia_apply ex_i1 (CEvent "k" "e").
Definition ex_tr : list pact :=
  [PEmit (CEvent "j" "e"); PReadCall 0; PTake 65 (CEvent "j" "e"); PEmit (CEvent "k" "e"); PReadTake 0 66;
   PReadRet 0 [ex_i1]; PTick 67; PTake 68 (CEvent "k" "e"); PReadCall 1; PReadTake 1 69; PReadRet 1 [ex_i2];
   PEmit (CEvent "l" "f"); PShutCall 2; PShutTake 2; PShutRet 2; PEmit (CEvent "m" "g"); PReadCall 0; PShutCall 1].
Definition ex_end : pst :=
  PSt [CEvent "l" "f"; CEvent "m" "g"] PStopped (Aggr 60 300 5 [ex_i2]) [0%nat] [1%nat] [].
Example C28_C31_execution : psteps (pst0 60 300) ex_tr ex_end.
Proof.
  unfold ex_tr. change (pst0 60 300) with (PSt [] PRun (Aggr 60 300 5 []) [] [] []).
  repeat (econstructor; [first
    [apply Ps_emit; [done|vm_compute; done]
    |apply Ps_read_call; [done|repeat split; try set_solver; done]
    |apply Ps_shut_call; [done|repeat split; try set_solver; done]
    |eapply Ps_take; reflexivity
    |eapply Ps_tick; reflexivity
    |eapply Ps_read_take; [set_solver|reflexivity]
    |apply Ps_read_ret
    |apply Ps_shut_take; set_solver
    |apply Ps_shut_ret; set_solver]|]; cbn [p_q p_loop p_agg p_wr p_wd p_wb app p_out remove Nat.eq_dec]).
  apply Pss_nil.
Qed.

(** ** C28 *)
Theorem C28_processed_once_in_order : ∀ d retain tr s,
  psteps (pst0 d retain) tr s →
  poll_accepted tr = poll_processed tr ++ p_q s ∧ Z.of_nat (length (p_q s)) ≤ 4096 ∧
  (p_alive s → ∃ a0, new_aggregator d retain = Ok a0 ∧ agg_run a0 (poll_history tr) = Ok (p_agg s)).
Proof. exact poll_fifo. Qed.
Print Assumptions C28_processed_once_in_order.

Theorem C28_never_dies : ∀ d retain tr s,
  0 < d → d ≤ retain → psteps (pst0 d retain) tr s → p_alive s.
Proof. exact poll_alive. Qed.
Print Assumptions C28_never_dies.

Example C28_example : poll_accepted ex_tr = [CEvent "j" "e"; CEvent "k" "e"; CEvent "l" "f"; CEvent "m" "g"] ∧
  poll_processed ex_tr = [CEvent "j" "e"; CEvent "k" "e"] ∧
  poll_history ex_tr = [(65, OpCmd (CEvent "j" "e")); (66, OpRead); (67, OpTick); (68, OpCmd (CEvent "k" "e")); (69, OpRead)].
Proof. done. Qed.

(** ** C29 *)
Theorem C29_read_sees_prefix : ∀ d retain tr i out s,
  psteps (pst0 d retain) (tr ++ [PReadRet i out]) s →
  ∃ tr1 t tr2, tr = tr1 ++ PReadTake i t :: tr2 ∧ poll_history tr2 = [] ∧
    get_metrics d retain (poll_history tr1) t = Ok out ∧
    poll_processed tr1 `prefix_of` poll_accepted tr1.
Proof. exact read_sees. Qed.
Print Assumptions C29_read_sees_prefix.

Theorem C29_reads_grow : ∀ d retain tr1 i out1 tr2 j out2 s,
  psteps (pst0 d retain) (tr1 ++ PReadRet i out1 :: tr2 ++ [PReadRet j out2]) s →
  ∃ h1 t1 h2 t2, get_metrics d retain h1 t1 = Ok out1 ∧ get_metrics d retain h2 t2 = Ok out2 ∧
    (h1 ++ [(t1, OpRead)]) `prefix_of` h2 ∧
    hist_cmds h1 `prefix_of` hist_cmds h2 ∧
    hist_cmds h1 `prefix_of` poll_accepted tr1 ∧
    hist_cmds h2 `prefix_of` poll_accepted (tr1 ++ tr2).
Proof. exact reads_grow. Qed.
Print Assumptions C29_reads_grow.

Theorem C29_reader_served : ∀ d retain tr s i t,
  0 < d → d ≤ retain → psteps (pst0 d retain) tr s → i ∈ p_wr s →
  p_loop s ≠ PByeSend → p_loop s ≠ PStopped →
  ∃ tr' out s', Forall loop_step tr' ∧ (length tr' ≤ 3)%nat ∧ psteps s (tr' ++ [PReadRet i out]) s' ∧
    ∀ t', (∃ j, PReadTake j t' ∈ tr') → t' = t.
Proof. exact read_can_return. Qed.
Print Assumptions C29_reader_served.

Example C29_example :
  get_metrics 60 300 [(65, OpCmd (CEvent "j" "e"))] 66 = Ok [ex_i1] ∧
  am_events (ia_maps ex_i1) !! "e" = Some 1 ∧ am_events (ia_maps ex_i2) !! "e" = Some 2.
Proof. vm_compute. done. Qed.

(** ** C30: false of the code.  The select of aggregator.go:33 may take the read
    before the queued command. *)
Theorem C30_read_your_writes_refuted : ∃ tr1 i tr2 out s,
  psteps (pst0 60 300) (tr1 ++ PReadCall i :: tr2 ++ [PReadRet i out]) s ∧
  PEmit (CEvent "job" "boom") ∈ tr1 ∧
  (∀ ag, ag ∈ out → am_events (ia_maps ag) !! "boom" = None).
Proof. exact read_your_writes_fails. Qed.
Print Assumptions C30_read_your_writes_refuted.

(** At most the last 4096 commands emitted before the call are missing, and
    none that the goroutine had processed. *)
Theorem C30_read_your_writes_partial : ∀ d retain tr1 i tr2 out s,
  psteps (pst0 d retain) (tr1 ++ PReadCall i :: tr2 ++ [PReadRet i out]) s →
  ∃ h t, get_metrics d retain h t = Ok out ∧
    hist_cmds h `prefix_of` poll_accepted (tr1 ++ tr2) ∧
    poll_processed tr1 `prefix_of` hist_cmds h ∧
    Z.of_nat (length (poll_accepted tr1)) - 4096 ≤ Z.of_nat (length (hist_cmds h)).
Proof. exact read_staleness. Qed.
Print Assumptions C30_read_your_writes_partial.

(** With nothing queued at the call, everything emitted before is seen. *)
Theorem C30_quiet_read_partial : ∀ d retain tr1 i tr2 out s m,
  psteps (pst0 d retain) tr1 m → p_q m = [] → psteps m (PReadCall i :: tr2 ++ [PReadRet i out]) s →
  ∃ h t, get_metrics d retain h t = Ok out ∧
    poll_accepted tr1 `prefix_of` hist_cmds h ∧ hist_cmds h `prefix_of` poll_accepted (tr1 ++ tr2).
Proof. exact read_quiet. Qed.
Print Assumptions C30_quiet_read_partial.

(** ** C31 *)
Theorem C31_shutdown_final : ∀ d retain tr1 i tr2 s,
  psteps (pst0 d retain) (tr1 ++ PShutRet i :: tr2) s →
  ∃ m, psteps (pst0 d retain) (tr1 ++ [PShutRet i]) m ∧ p_loop s = PStopped ∧ p_agg s = p_agg m ∧
    Forall (λ a, ¬ loop_step a) tr2 ∧
    p_q s = p_q m ++ poll_accepted tr2 ∧
    Z.of_nat (length (p_q m)) + Z.of_nat (length (poll_accepted tr2)) ≤ 4096.
Proof. exact shut_final. Qed.
Print Assumptions C31_shutdown_final.

Theorem C31_shutdown_served : ∀ d retain tr s i,
  0 < d → d ≤ retain → psteps (pst0 d retain) tr s → i ∈ p_wd s →
  p_loop s ≠ PByeSend → p_loop s ≠ PStopped →
  ∃ tr' s', Forall loop_step tr' ∧ (length tr' ≤ 3)%nat ∧ psteps s (tr' ++ [PShutRet i]) s'.
Proof. exact shut_can_return. Qed.
Print Assumptions C31_shutdown_served.

(** the calls the theorem says never return are really waiting in the example *)
Example C31_example : p_loop ex_end = PStopped ∧ 0%nat ∈ p_wr ex_end ∧ 1%nat ∈ p_wd ex_end.
Proof. repeat split; set_solver. Qed.
