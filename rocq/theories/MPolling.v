(** * Model of the polling sink's goroutine, channels and callers
      (json_polling_sink.go, aggregator.go:22-54)

    A labelled transition system.  Callers are numbered.  The steps are the
    completed channel operations and the starts of the calls that may block; a
    caller blocked on a full queue has not taken its step yet.  The clock
    reading of every iteration of the loop is a parameter of its label. *)
From Verif Require Export MAgg.

(** where the goroutine of aggregator.go:31-53 is *)
Inductive ploop :=
  | PRun                               (* 32: in the select *)
  | PReply (i : nat) (out : list ia)   (* 51: blocked on caller i's intervalsChan *)
  | PByeSend                           (* 34: blocked on doneDoneChan *)
  | PStopped                           (* 35: left the loop *)
  | PCrashed.                          (* a panic in the goroutine ended the process *)

Record pst := PSt {
  p_q : list cmd;         (* cmdChan, head first *)
  p_loop : ploop;
  p_agg : aggr;
  p_wr : list nat;        (* callers blocked on intervalsChanChan, json_polling_sink.go:78 *)
  p_wd : list nat;        (* callers blocked on doneChan, json_polling_sink.go:52 *)
  p_wb : list nat }.      (* callers blocked on doneDoneChan, json_polling_sink.go:53 *)

(** json_polling_sink.go:36 [buffSize] *)
Definition poll_buff : Z := 4096.

(** json_polling_sink.go:35-49 [NewJsonPollingSink] and aggregator.go:28.  The
    panics of newAggregator happen in the new goroutine.  (Simplification:
    they happen before any call to the sink.) *)
Definition pst0 (dur retain : Z) : pst :=
  match new_aggregator dur retain with
  | Ok a => PSt [] PRun a [] [] []
  | Crash _ => PSt [] PCrashed (Aggr dur retain 0 []) [] [] []
  end.

Inductive pact :=
  | PEmit (c : cmd)                      (* an Emit call enqueued its command and returned, 56-74 *)
  | PReadCall (i : nat)                  (* i called GetMetrics, 76 *)
  | PReadTake (i : nat) (t : Z)          (* the loop received i's channel, 78 / aggregator.go:50-51 *)
  | PReadRet (i : nat) (out : list ia)   (* i's GetMetrics returned, 79 / aggregator.go:51 *)
  | PShutCall (i : nat)                  (* i called ShutdownServer, 51 *)
  | PShutTake (i : nat)                  (* the loop received from doneChan, 52 / aggregator.go:33 *)
  | PShutRet (i : nat)                   (* i's ShutdownServer returned, 53 / aggregator.go:34 *)
  | PTake (t : Z) (c : cmd)              (* the loop received and processed a command, aggregator.go:36-47 *)
  | PTick (t : Z).                       (* the loop received from the ticker, aggregator.go:48-49 *)

Definition p_room (s : pst) : Prop := Z.of_nat (length (p_q s)) < poll_buff.

Definition p_out (i : nat) (l : list nat) : list nat := remove Nat.eq_dec i l.

(** caller [i] is not inside a call *)
Definition p_idle (s : pst) (i : nat) : Prop :=
  i ∉ p_wr s ∧ i ∉ p_wd s ∧ i ∉ p_wb s ∧ ∀ out, p_loop s ≠ PReply i out.

Definition p_alive (s : pst) : Prop := p_loop s ≠ PCrashed.

Inductive pstep : pst → pact → pst → Prop :=
  | Ps_emit s c : p_alive s → p_room s →
      pstep s (PEmit c) (PSt (p_q s ++ [c]) (p_loop s) (p_agg s) (p_wr s) (p_wd s) (p_wb s))
  | Ps_read_call s i : p_alive s → p_idle s i →
      pstep s (PReadCall i) (PSt (p_q s) (p_loop s) (p_agg s) (i :: p_wr s) (p_wd s) (p_wb s))
  | Ps_shut_call s i : p_alive s → p_idle s i →
      pstep s (PShutCall i) (PSt (p_q s) (p_loop s) (p_agg s) (p_wr s) (i :: p_wd s) (p_wb s))
  | Ps_read_take q a a' out wr wd wb i t :
      i ∈ wr → agg_step a t OpRead = Ok (a', Some out) →
      pstep (PSt q PRun a wr wd wb) (PReadTake i t) (PSt q (PReply i out) a' (p_out i wr) wd wb)
  | Ps_read_take_crash q a why wr wd wb i t :
      i ∈ wr → agg_step a t OpRead = Crash why →
      pstep (PSt q PRun a wr wd wb) (PReadTake i t) (PSt q PCrashed a (p_out i wr) wd wb)
  | Ps_read_ret q a out wr wd wb i :
      pstep (PSt q (PReply i out) a wr wd wb) (PReadRet i out) (PSt q PRun a wr wd wb)
  | Ps_shut_take q a wr wd wb i : i ∈ wd →
      pstep (PSt q PRun a wr wd wb) (PShutTake i) (PSt q PByeSend a wr (p_out i wd) (i :: wb))
  | Ps_shut_ret q a wr wd wb i : i ∈ wb →
      pstep (PSt q PByeSend a wr wd wb) (PShutRet i) (PSt q PStopped a wr wd (p_out i wb))
  | Ps_take c q a a' x wr wd wb t : agg_step a t (OpCmd c) = Ok (a', x) →
      pstep (PSt (c :: q) PRun a wr wd wb) (PTake t c) (PSt q PRun a' wr wd wb)
  | Ps_take_crash c q a why wr wd wb t : agg_step a t (OpCmd c) = Crash why →
      pstep (PSt (c :: q) PRun a wr wd wb) (PTake t c) (PSt q PCrashed a wr wd wb)
  | Ps_tick q a a' x wr wd wb t : agg_step a t OpTick = Ok (a', x) →
      pstep (PSt q PRun a wr wd wb) (PTick t) (PSt q PRun a' wr wd wb)
  | Ps_tick_crash q a why wr wd wb t : agg_step a t OpTick = Crash why →
      pstep (PSt q PRun a wr wd wb) (PTick t) (PSt q PCrashed a wr wd wb).

Inductive psteps : pst → list pact → pst → Prop :=
  | Pss_nil s : psteps s [] s
  | Pss_cons s a s' tr s'' : pstep s a s' → psteps s' tr s'' → psteps s (a :: tr) s''.
