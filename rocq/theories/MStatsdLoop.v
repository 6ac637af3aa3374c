(** * Model of the StatsD sink's goroutine, channels and callers
      (statsd_sink.go:125-191)

    A labelled transition system.  Callers are numbered.  The atomic steps are
    the completed channel operations; a caller blocked on a full queue simply
    has not taken its step yet. *)
From Verif Require Export MStatsd.

(** where the goroutine of statsd_sink.go:155-191 is *)
Inductive lstate :=
  | LRun        (* 166: receiving from cmdChan *)
  | LDrain      (* 170-171: in DRAIN_LOOP's select *)
  | LDrainSend  (* 176: blocked on drainDoneChan *)
  | LStopSend   (* 181: blocked on stopDoneChan *)
  | LDone.      (* 190: left the loop *)

Record lst := LSt {
  l_q : list scmd;      (* cmdChan, head first *)
  l_loop : lstate;
  l_sd : sd;
  l_wd : list nat;      (* callers blocked on drainDoneChan, 132 *)
  l_ws : list nat }.    (* callers blocked on stopDoneChan, 127 *)

Definition lst0 : lst := LSt [] LRun sd0 [] [].

(** statsd_sink.go:87 *)
Definition cmdChanBuffSize : Z := 8192.

Inductive sact :=
  | AEmit (c : cmd)       (* an Emit call enqueued its command, 135-153 *)
  | ATick                 (* the ticker goroutine enqueued a flush, 159-163 *)
  | ADrainCall (i : nat)  (* Drain called by i enqueued its command, 131 *)
  | AStopCall (i : nat)   (* Stop called by i enqueued its command, 126 *)
  | ATake                 (* the loop received a command, 166-187 *)
  | ADrainTake            (* DRAIN_LOOP received a command, 172-173 *)
  | ADrainEmpty           (* DRAIN_LOOP found the queue empty, 174-175 *)
  | ADrainDone (i : nat)  (* caller i's Drain returned, 176/132 *)
  | AStopDone (i : nat).  (* caller i's Stop returned, 181/127 *)

Definition room (s : lst) : Prop := Z.of_nat (length (l_q s)) < cmdChanBuffSize.

Definition set_q (s : lst) (q : list scmd) : lst := LSt q (l_loop s) (l_sd s) (l_wd s) (l_ws s).

(** removal of one caller from a wait list *)
Definition remove_one (i : nat) (l : list nat) : list nat := remove Nat.eq_dec i l.

Inductive lstep (o : opts) : lst → sact → lst → Prop :=
  | St_emit s c : room s → lstep o s (AEmit c) (set_q s (l_q s ++ [SMetric c]))
  | St_tick s : room s → lstep o s ATick (set_q s (l_q s ++ [SFlush]))
  | St_drain_call s i : room s → i ∉ l_wd s → i ∉ l_ws s →
      lstep o s (ADrainCall i) (LSt (l_q s ++ [SDrain]) (l_loop s) (l_sd s) (i :: l_wd s) (l_ws s))
  | St_stop_call s i : room s → i ∉ l_wd s → i ∉ l_ws s →
      lstep o s (AStopCall i) (LSt (l_q s ++ [SStop]) (l_loop s) (l_sd s) (l_wd s) (i :: l_ws s))
  | St_take_drain q d wd ws :
      lstep o (LSt (SDrain :: q) LRun d wd ws) ATake (LSt q LDrain d wd ws)
  | St_take_stop q d wd ws :
      lstep o (LSt (SStop :: q) LRun d wd ws) ATake (LSt q LStopSend d wd ws)
  | St_take_flush q d wd ws :
      lstep o (LSt (SFlush :: q) LRun d wd ws) ATake (LSt q LRun (sd_flush d) wd ws)
  | St_take_metric c q d d' wd ws :
      process_cmd o d (SMetric c) = Ok d' →
      lstep o (LSt (SMetric c :: q) LRun d wd ws) ATake (LSt q LRun d' wd ws)
  | St_drain_take c q d d' wd ws :
      process_cmd o d c = Ok d' →
      lstep o (LSt (c :: q) LDrain d wd ws) ADrainTake (LSt q LDrain d' wd ws)
  | St_drain_empty d wd ws :
      lstep o (LSt [] LDrain d wd ws) ADrainEmpty (LSt [] LDrainSend (sd_flush d) wd ws)
  | St_drain_done q d wd ws i : i ∈ wd →
      lstep o (LSt q LDrainSend d wd ws) (ADrainDone i) (LSt q LRun d (remove_one i wd) ws)
  | St_stop_done q d wd ws i : i ∈ ws →
      lstep o (LSt q LStopSend d wd ws) (AStopDone i) (LSt q LDone d wd (remove_one i ws)).

Inductive lsteps (o : opts) : lst → list sact → lst → Prop :=
  | Ls_nil s : lsteps o s [] s
  | Ls_cons s a s' tr s'' : lstep o s a s' → lsteps o s' tr s'' → lsteps o s (a :: tr) s''.
