(** * Model of healthd's own instrumentation: HTTP requests
      (healthd/api.go:102-131) and polls (healthd/poll.go:22-70) *)
From Verif Require Export MHealth MHealthd MFmt.

(** api.go:118-129: HTTP status code to completion status *)
Definition http_status (code : Z) : Z :=
  if code <? 400 then Success
  else if code =? 422 then ValidationError
  else if code <? 500 then Junk
  else Error.

(** api.go:102-131 [HealthMiddleware].  [next] is the rest of the request: an
    arbitrary state transformer, which returns the status code it left in the
    response writer or panics ([None]).  The job is passed to it as [c.Job]. *)
Definition health_middleware (w : world) (s : nat) (route path : string)
    (next : world → nat → world * option Z) : res world :=
  let '(w, j) := new_job w s route in
  let '(w, inst) := new_map w {[ "path" := path ]} in
  w ←r job_event_kv w j "starting_request" (Some inst);
  let '(w, code) := next w j in
  match code with
  | None => Ok w     (* the panic goes through: nothing after next runs *)
  | Some code =>
      let '(w, kvs) := new_map w (<[ "code" := dec_int code ]> {[ "path" := path ]}) in
      job_complete_kv w j (http_status code) (Some kvs)
  end.

(** What happened to a GET: the request failed, the body could not be read
    (status code and nanoseconds are known by then), it could not be decoded,
    or all went well and gave this reply.  A failed decoding may have filled in
    some of the fields already. *)
Record reply := Reply { y_inst : string; y_dur : Z; y_aggs : list (option dagg) }.
Inductive fetch :=
  | FGet (x : errv)
  | FRead (code nanos : Z) (x : errv)
  | FDecode (code nanos : Z) (x : errv) (part : reply)
  | FReply (code nanos : Z) (y : reply).

(** [err.Error()], followed through the wrappers; [fuel] bounds the nesting *)
Fixpoint err_text (fuel : nat) (w : world) (e : errv) : option string :=
  match fuel with
  | O => None
  | S fuel =>
      match e with
      | ENil => None
      | EUser _ t => Some t
      | EMuted l => match w_errs w !! l with Some (OMuted x) => err_text fuel w x | _ => None end
      | EUnmuted l => match w_errs w !! l with Some (OUnmuted x _ _) => err_text fuel w x | _ => None end
      end
  end.

(** poll.go:23-70 [poll]: the new world and the response sent on the channel,
    [ts] being now() and [stack] the trace captured by EventErr.  The response
    keeps the text of its error, which is all that is ever read of it. *)
Definition poll (w : world) (s : nat) (hp : string) (ts : Z) (f : fetch) (stack : list N) : res (world * resp) :=
  let '(w, j) := new_job w s "poll" in
  r ←r match f with
       | FGet x =>
           r ←r job_event_err w j "poll.client.get" x stack;
           Ok (r.1, Some r.2, 0, 0, Reply "" 0 [])
       | FRead code nanos x =>
           r ←r job_event_err w j "poll.ioutil.read_all" x stack;
           Ok (r.1, Some r.2, code, nanos, Reply "" 0 [])
       | FDecode code nanos x part =>
           r ←r job_event_err w j "poll.json.unmarshall" x stack;
           Ok (r.1, Some r.2, code, nanos, part)
       | FReply code nanos y => Ok (w, None, code, nanos, y)
       end;
  let '(w, err, code, nanos, y) := r in
  let '(w, inst) := new_map w {[ "host_port" := hp ]} in
  let status := match err with Some e => if bool_decide (e ≠ ENil) then Error else Success | None => Success end in
  w ←r job_complete_kv w j status (Some inst);
  let text := match err with Some e => err_text 3 w e | None => None end in
  Ok (w, Resp hp ts text code nanos (y_inst y) (y_dur y) (y_aggs y)).
