(** * Model of the goroutine that asks the StatsD sink to flush
      (statsd_sink.go:158-163 and 190)

    MStatsdLoop.v has one step for a flush that is put into cmdChan.  Here are
    the ticker and the goroutine that turns its ticks into flushes. *)
From Verif Require Export MStatsdLoop.

(** where the goroutine of statsd_sink.go:159-163 is.  Nobody closes ticker.C
    ([Ticker.Stop] does not), so its loop has no end. *)
Inductive tgo :=
  | TkRecv   (* 160: receiving from ticker.C *)
  | TkSend.  (* 161: blocked on cmdChan *)

Record kst := KSt {
  k_l : lst;       (* the sink *)
  k_buf : bool;    (* ticker.C, which holds one tick *)
  k_go : tgo;
  k_on : bool }.   (* the ticker runs *)

(** statsd_sink.go:158: NewTicker *)
Definition kst0 : kst := KSt lst0 false TkRecv true.

Inductive kact :=
  | KSink (a : sact)  (* callers and the loop, as in MStatsdLoop.v *)
  | KFire             (* a tick; dropped if the last one was not taken *)
  | KRecv             (* the goroutine takes a tick, 160 *)
  | KSend             (* the goroutine's flush is in cmdChan, 161 *)
  | KOff.             (* the loop has left and stops the ticker, 190 *)

Inductive kstep (o : opts) : kst → kact → kst → Prop :=
  | Ks_sink a l l' b g on : a ≠ ATick → lstep o l a l' → kstep o (KSt l b g on) (KSink a) (KSt l' b g on)
  | Ks_fire l b g : kstep o (KSt l b g true) KFire (KSt l true g true)
  | Ks_recv l on : kstep o (KSt l true TkRecv on) KRecv (KSt l false TkSend on)
  | Ks_send l l' b on : lstep o l ATick l' → kstep o (KSt l b TkSend on) KSend (KSt l' b TkRecv on)
  | Ks_off l b g : l_loop l = LDone → kstep o (KSt l b g true) KOff (KSt l b g false).
