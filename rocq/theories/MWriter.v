(** * Model of the WriterSink (writer_sink.go) *)
From Verif Require Export MAgg MFmt MApi.

(** the calls a sink receives (health.go:60-66); of the error only the text
    matters here *)
Inductive emission :=
  | WEvent (event : string)
  | WEventErr (event msg : string)
  | WTiming (event : string) (nanos : Z)
  | WGauge (event : string) (v : f64)
  | WComplete (status nanos : Z).

(** writer_sink.go:113-121: the loop over the sorted keys; [i] is the index,
    [last] is keysLenMinusOne *)
Fixpoint write_kvs (m : gmap string string) (last i : Z) (keys : list string) : string :=
  match keys with
  | [] => ""
  | k :: keys' =>
      k +:+ ":" +:+ mget m k "" +:+ (if negb (i =? last) then " " else "") +:+ write_kvs m last (i + 1) keys'
  end.

(** writer_sink.go:101-123 [writeMapConsistently]; a nil map is [None]; [order] is
    the order in which the map was enumerated, [srt] is sort.Strings *)
Definition write_map (srt : sorting_fn string) (kvs : option (gmap string string)) (order : list string) : string :=
  match kvs with
  | None => ""
  | Some m =>
      let keys := srt str_ltb order in
      " kvs:[" +:+ write_kvs m (Z.of_nat (length keys) - 1) 0 keys +:+ "]"
  end.

(** "μs" in UTF-8 *)
Definition mu_s : string := String (Ascii.ascii_of_N 206) (String (Ascii.ascii_of_N 188) "s").

(** writer_sink.go:125-134 [writeNanoseconds] *)
Definition write_nanoseconds (nanos : Z) : string :=
  if 2000000 <? nanos then dec_int (Z.quot nanos 1000000) +:+ " ms"
  else if 2000 <? nanos then dec_int (Z.quot nanos 1000) +:+ " " +:+ mu_s
  else dec_int nanos +:+ " ns".

(** writer_sink.go:24-95: the bytes of one emission.  [ts] is what timestamp()
    returns, [g] is fmt's %g. *)
Definition writer_line (srt : sorting_fn string) (g : f64 → string) (ts job : string) (e : emission)
    (kvs : option (gmap string string)) (order : list string) : string :=
  "[" +:+ ts +:+ "]: job:" +:+ job +:+
  match e with
  | WEvent event => " event:" +:+ event
  | WEventErr event msg => " event:" +:+ event +:+ " err:" +:+ msg
  | WTiming event nanos => " event:" +:+ event +:+ " time:" +:+ write_nanoseconds nanos
  | WGauge event v => " event:" +:+ event +:+ " gauge:" +:+ g v
  | WComplete status nanos => " status:" +:+ status_string status +:+ " time:" +:+ write_nanoseconds nanos
  end +:+ write_map srt kvs order +:+ nl.

(** the Writes made so far *)
Definition writer_emit (srt : sorting_fn string) (g : f64 → string) (ts job : string) (e : emission)
    (kvs : option (gmap string string)) (order : list string) (writes : list string) : list string :=
  writes ++ [writer_line srt g ts job e kvs order].
