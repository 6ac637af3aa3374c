(** * Model of the Bugsnag sink (sinks/bugsnag/sink.go, sinks/bugsnag/api.go) *)
From Verif Require Export MHealth MStack.

(** ** Which calls are queued *)

(** sinks/bugsnag/sink.go:16-21 [cmdEventErr]; the error is the address of the
    UnmutedError, the key/values the map reference it was given *)
Record bcmd := BCmd { b_job : string; b_event : string; b_err : nat; b_kvs : option nat }.

(** sinks/bugsnag/sink.go:41-67: what each Emit method enqueues *)
Definition bugsnag_emit (c : call) : option bcmd :=
  match c_what c with
  | PEventErr event (EUnmuted l) false => Some (BCmd (c_job c) event l (c_kvs c))
  | _ => None
  end.

(** the commands a Bugsnag sink with number [b] enqueued, given the calls made
    on all sinks *)
Definition bugsnag_queue (b : nat) (log : list call) : list bcmd :=
  omap (λ c, if bool_decide (c_sink c = b) then bugsnag_emit c else None) log.

(** ** The payload *)

(** sinks/bugsnag/api.go:12-34 [Config] *)
Record bconfig := BConfig {
  bc_apikey : string; bc_endpoint : string; bc_stage : string; bc_version : string; bc_host : string }.

(** sinks/bugsnag/sink.go:23-39 [NewSink]: the only default applied *)
Definition new_sink_config (c : bconfig) : bconfig :=
  BConfig (bc_apikey c) (if String.eqb (bc_endpoint c) "" then "https://notify.bugsnag.com/" else bc_endpoint c)
    (bc_stage c) (bc_version c) (bc_host c).

(** sinks/bugsnag/api.go:84-90 [payloadFrame] *)
Record bframe := BFrame { bf_file : string; bf_line : Z; bf_method : string; bf_inproject : bool }.
(** sinks/bugsnag/api.go:78-82 [payloadException] *)
Record bexc := BExc { be_class : string; be_message : string; be_stack : list bframe }.
(** sinks/bugsnag/api.go:48-76 [payloadEvent], flattened *)
Record bevent := BEvent {
  bv_version : string; bv_excs : list bexc; bv_context : string; bv_stage : string; bv_host : string;
  bv_url : string; bv_params : string; bv_kvs : gmap string string }.
(** sinks/bugsnag/api.go:36-46 [payload], flattened *)
Record bpayload := BPayload {
  bp_apikey : string; bp_name : string; bp_nversion : string; bp_nurl : string; bp_events : list bevent }.

(** sinks/bugsnag/api.go:126-167 [newPayload]; [message] is err.Error() and
    [frames] is trace.Frames() *)
Definition new_payload (cfg : bconfig) (job event message : string) (frames : list frame)
    (kvs : gmap string string) : bpayload :=
  let stack := fold_left (λ acc f, acc ++ [BFrame (f_file f) (f_line f) (f_pkg f +:+ ":" +:+ f_name f) (negb (f_system f))])
                         frames [] in
  let except := BExc event message stack in
  let url := match kvs !! "request" with Some u => u | None => "" end in
  let params := match kvs !! "formdata" with Some u => u | None => "" end in
  let evt := BEvent "2" [except] job (bc_stage cfg) (bc_host cfg) url params kvs in
  BPayload (bc_apikey cfg) "health" "1.0" "https://www.github.com/gocraft/health" [evt].

(** ** The sending goroutine (sinks/bugsnag/sink.go:70-89)

    [q_chan] is cmdChan (capacity 25, line 24); [q_sent] the commands passed to
    Notify, oldest first; [q_done] whether the loop has ended. *)
Record bq := BQ { q_chan : list bcmd; q_sent : list bcmd; q_done : bool }.
Definition bq0 : bq := BQ [] [] false.
Definition bugsnag_chan_size : nat := 25.

Inductive bact := BEnqueue (c : bcmd) | BNotify | BShutdown.

Inductive bstep : bq → bact → bq → Prop :=
  | B_enq s c : (length (q_chan s) < bugsnag_chan_size)%nat →
      bstep s (BEnqueue c) (BQ (q_chan s ++ [c]) (q_sent s) (q_done s))
  | B_notify c q sent : bstep (BQ (c :: q) sent false) BNotify (BQ q (sent ++ [c]) false)
  | B_shutdown q sent : bstep (BQ q sent false) BShutdown (BQ q sent true).

Inductive bsteps : bq → list bact → bq → Prop :=
  | Bs_nil s : bsteps s [] s
  | Bs_cons s a m tr s' : bstep s a m → bsteps m tr s' → bsteps s (a :: tr) s'.
