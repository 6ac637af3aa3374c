(** * Model of the StatsD sink's goroutine-local code (statsd_sink.go)

    [sd] is the part of the StatsDSink struct that its goroutine owns.
    Writing to the UDP socket appends to [sd_sent] (WriteToUDP's error is
    ignored by the code; what the network does with a datagram is not
    modelled). *)
From Verif Require Export MAgg MFmt.

(** statsd_sink.go:23-40 [StatsDSinkOptions].  Simplification: a
    SanitizationFunc is a function from the key to the text it appends to the
    buffer (it cannot inspect or rewrite the buffer).
    [o_short] is not an option of the code: it stands for
    [strconv.AppendFloat(_, v, 'f', -1, 64)], Go's shortest decimal form
    ([MNum.go_short]); most theorems hold whatever it is. *)
Record opts := Opts {
  o_prefix : string;
  o_san : string → string;
  o_skip_nested : bool;
  o_skip_top : bool;
  o_short : f64 → string }.

(** statsd_sink.go:12-16 [eventKey] *)
Notation skey := (string * string * string)%type (only parsing).

(** statsd_sink.go:18-21 [prefixBuffer]: the bytes held by the shared
    bytes.Buffer and the prefix length *)
Record pbuf := PBuf { pb_bytes : string; pb_len : nat }.

(** statsd_sink.go:44-63: the goroutine-local fields, and the datagrams given
    to the socket, oldest first *)
Record sd := SD {
  sd_udp : string;
  sd_timing : string;
  sd_cache : gmap skey pbuf;
  sd_sent : list string }.

(** statsd_sink.go:101-109 *)
Definition sd0 : sd := SD "" "" ∅ [].

(** statsd_sink.go:88 *)
Definition maxUdpBytes : Z := 1440.

Definition zlen (s : string) : Z := Z.of_nat (String.length s).

(** bytes.Buffer.Truncate *)
Definition buf_truncate (b : string) (n : nat) : res string :=
  if (n <=? String.length b)%nat then Ok (String.substring 0 n b)
  else Crash "bytes.Buffer: truncation out of range".

(** statsd_sink.go:360-370 [sanitizeKey], one byte *)
Definition sanitize_byte (c : ascii) : ascii :=
  let n := code c in
  if ((65 <=? n) && (n <=? 90) || (97 <=? n) && (n <=? 122) || (48 <=? n) && (n <=? 57)
      || (n =? 95) || (n =? 46))%N
  then c else "$"%char.
(** statsd_sink.go:360-370 [sanitizeKey] *)
Definition sanitize_key (s : string) : string := str_of (map sanitize_byte (bytes_of s)).

(** statsd_sink.go:337-348 [writeSanitizedKeys] *)
Definition write_sanitized_keys (o : opts) (b : string) (keys : list string) : string :=
  fst (fold_left (λ '(b, need_dot) k,
         if bool_decide (k ≠ "") then
           ((if need_dot : bool then b +:+ "." else b) +:+ o_san o k, true)
         else (b, need_dot)) keys (b, false)).

(** statsd_sink.go:317-335 [getPrefixBuffer]; the buffer the caller then writes
    to is the one in the cache *)
Definition get_prefix_buffer (o : opts) (s : sd) (k : skey) : res sd :=
  let '(job, event, suffix) := k in
  match sd_cache s !! k with
  | None =>
      let b := write_sanitized_keys o "" [o_prefix o; job; event; suffix] +:+ ":" in
      Ok (SD (sd_udp s) (sd_timing s) (<[k := PBuf b (String.length b)]> (sd_cache s)) (sd_sent s))
  | Some b =>
      t ←r buf_truncate (pb_bytes b) (pb_len b);
      Ok (SD (sd_udp s) (sd_timing s) (<[k := PBuf t (pb_len b)]> (sd_cache s)) (sd_sent s))
  end.

(** [pb.WriteString(t)] / [pb.Write(t)] on the buffer of key [k] *)
Definition pb_write (s : sd) (k : skey) (t : string) : sd :=
  SD (sd_udp s) (sd_timing s)
     (alter (λ b, PBuf (pb_bytes b +:+ t) (pb_len b)) k (sd_cache s)) (sd_sent s).

(** [pb.Bytes()] *)
Definition pb_read (s : sd) (k : skey) : string :=
  match sd_cache s !! k with Some b => pb_bytes b | None => "" end.

(** [s.udpConn.WriteToUDP(s.udpBuf.Bytes(), s.udpAddr); s.udpBuf.Truncate(0)] *)
Definition sd_send (s : sd) : sd :=
  SD "" (sd_timing s) (sd_cache s) (sd_sent s ++ [sd_udp s]).

(** statsd_sink.go:287-292 [flush] *)
Definition sd_flush (s : sd) : sd := if 0 <? zlen (sd_udp s) then sd_send s else s.

(** statsd_sink.go:295-315 [writeStatsDMetric] *)
Definition write_metric (s : sd) (b : string) : sd :=
  let lenb := zlen b in
  if lenb =? 0 then s
  else if maxUdpBytes <? lenb then s
  else
    let s := if maxUdpBytes <? lenb + zlen (sd_udp s) then sd_send s else s in
    SD (sd_udp s +:+ b) (sd_timing s) (sd_cache s) (sd_sent s).

Definition with_timing (s : sd) (t : string) : sd := SD (sd_udp s) t (sd_cache s) (sd_sent s).

(** statsd_sink.go:350-358 [writeNanosToTimingBuf]: the text it leaves in
    timingBuf *)
Definition nanos_text (nanos : Z) : string :=
  if 10000000 <=? nanos then dec_int (Z.quot nanos 1000000)
  else fmt_fixed (fdiv (fofZ nanos) (fofZ 1000000)) 2.

(** the float64 constants 0.1 and -0.1 *)
Definition f_tenth : f64 := fdiv (fofZ 1) (fofZ 10).
Definition f_mtenth : f64 := SFopp f_tenth.

(** statsd_sink.go:255-260: the text processGauge leaves in timingBuf *)
Definition gauge_text (o : opts) (v : f64) : string :=
  if fltb v f_tenth && fgtb v f_mtenth then o_short o v else fmt_fixed v 2.

(** the three statements "pb := getPrefixBuffer(..); pb.Write*(..);
    writeStatsDMetric(pb.Bytes())" shared by the process functions *)
Definition write_line (o : opts) (s : sd) (k : skey) (texts : list string) : res sd :=
  s ←r get_prefix_buffer o s k;
  let s := fold_left (λ s t, pb_write s k t) texts s in
  Ok (write_metric s (pb_read s k)).

(** statsd_sink.go:208-220 [processEvent] *)
Definition process_event (o : opts) (s : sd) (job event : string) : res sd :=
  s ←r (if o_skip_top o then Ok s else write_line o s ("", event, "") ["1|c" +:+ nl]);
  if o_skip_nested o then Ok s else write_line o s (job, event, "") ["1|c" +:+ nl].

(** statsd_sink.go:222-234 [processEventErr] *)
Definition process_event_err (o : opts) (s : sd) (job event : string) : res sd :=
  s ←r (if o_skip_top o then Ok s else write_line o s ("", event, "error") ["1|c" +:+ nl]);
  if o_skip_nested o then Ok s else write_line o s (job, event, "error") ["1|c" +:+ nl].

(** statsd_sink.go:236-252 [processTiming] *)
Definition process_timing (o : opts) (s : sd) (job event : string) (nanos : Z) : res sd :=
  let s := with_timing s (nanos_text nanos) in
  s ←r (if o_skip_top o then Ok s else write_line o s ("", event, "") [sd_timing s; "|ms" +:+ nl]);
  if o_skip_nested o then Ok s else write_line o s (job, event, "") [sd_timing s; "|ms" +:+ nl].

(** statsd_sink.go:254-275 [processGauge] *)
Definition process_gauge (o : opts) (s : sd) (job event : string) (v : f64) : res sd :=
  let s := with_timing s (gauge_text o v) in
  s ←r (if o_skip_top o then Ok s else write_line o s ("", event, "") [sd_timing s; "|g" +:+ nl]);
  if o_skip_nested o then Ok s else write_line o s (job, event, "") [sd_timing s; "|g" +:+ nl].

(** statsd_sink.go:277-285 [processComplete] *)
Definition process_complete (o : opts) (s : sd) (job : string) (st nanos : Z) : res sd :=
  let s := with_timing s (nanos_text nanos) in
  write_line o s (job, "", status_string st) [sd_timing s; "|ms" +:+ nl].

(** statsd_sink.go:65-85 [statsdEmitCmd]: an emitted metric (the error and the
    kvs are not part of the command), a flush tick, a Drain or a Stop.  The
    metric commands reuse MAgg's [cmd]; the error in [CEventErr] is ignored. *)
Inductive scmd := SMetric (c : cmd) | SFlush | SDrain | SStop.

(** statsd_sink.go:193-206 [processCmd]: Flush, Drain and Stop are ignored *)
Definition process_cmd (o : opts) (s : sd) (c : scmd) : res sd :=
  match c with
  | SMetric (CEvent j e) => process_event o s j e
  | SMetric (CEventErr j e _) => process_event_err o s j e
  | SMetric (CTiming j e n) => process_timing o s j e n
  | SMetric (CGauge j e v) => process_gauge o s j e v
  | SMetric (CComplete j st n) => process_complete o s j st n
  | SFlush | SDrain | SStop => Ok s
  end.

(** What happens to the goroutine-local state over time, whatever the loop
    (statsd_sink.go:155-191, MStatsdLoop.v) decides: metrics are processed and
    the buffer is flushed. *)
Inductive sop := DoCmd (c : cmd) | DoFlush.

Definition sd_step (o : opts) (s : sd) (a : sop) : res sd :=
  match a with DoCmd c => process_cmd o s (SMetric c) | DoFlush => Ok (sd_flush s) end.

Fixpoint sd_run (o : opts) (s : sd) (l : list sop) : res sd :=
  match l with [] => Ok s | a :: l' => s ←r sd_step o s a; sd_run o s l' end.
