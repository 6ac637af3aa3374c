(** * Specification vocabulary for the polling sink *)
From Verif Require Export SAgg MPolling.

(** the commands whose Emit call returned, in order *)
Definition poll_accepted (tr : list pact) : list cmd :=
  omap (λ a, match a with PEmit c => Some c | _ => None end) tr.
(** the commands the goroutine processed, in order *)
Definition poll_processed (tr : list pact) : list cmd :=
  omap (λ a, match a with PTake _ c => Some c | _ => None end) tr.
(** the iterations of the loop, with their clock readings *)
Definition poll_history (tr : list pact) : list (Z * aop) :=
  omap (λ a, match a with
             | PTake t c => Some (t, OpCmd c)
             | PTick t => Some (t, OpTick)
             | PReadTake _ t => Some (t, OpRead)
             | _ => None
             end) tr.
(** the commands of a history *)
Definition hist_cmds (h : list (Z * aop)) : list cmd :=
  omap (λ x : Z * aop, match x.2 with OpCmd c => Some c | _ => None end) h.

(** steps of the goroutine *)
Definition loop_step (a : pact) : Prop :=
  match a with
  | PReadTake _ _ | PReadRet _ _ | PShutTake _ | PShutRet _ | PTake _ _ | PTick _ => True
  | _ => False
  end.

Definition is_read_ret (a : pact) : Prop := match a with PReadRet _ _ => True | _ => False end.
Definition is_read_call (i : nat) (a : pact) : Prop := match a with PReadCall j => i = j | _ => False end.
