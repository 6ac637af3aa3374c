(** * Model of cmd/healthtop and cmd/healthd *)
From Verif Require Export MUtf8 MFmt MApi MWriter.

(** ** net/url, as used by healthtop (jobs.go:56-68) and api.go:213-228

    Not code of /repo: QueryEscape, Values.Encode, ParseQuery and Get. *)
Definition unreserved (c : ascii) : bool :=
  within 65 90 c || within 97 122 c || within 48 57 c ||
  (zcode c =? 45) || (zcode c =? 95) || (zcode c =? 46) || (zcode c =? 126).
Definition hex_digit (n : Z) : ascii := if n <? 10 then zchar (48 + n) else zchar (55 + n).
Definition unhex (c : ascii) : option Z :=
  if within 48 57 c then Some (zcode c - 48)
  else if within 97 102 c then Some (zcode c - 87)
  else if within 65 70 c then Some (zcode c - 55)
  else None.
Fixpoint query_escape (s : string) : string :=
  match s with
  | EmptyString => EmptyString
  | String c s' =>
      (if unreserved c then String c ""
       else if zcode c =? 32 then "+"
       else String "%" (String (hex_digit (zcode c / 16)) (String (hex_digit (zcode c `mod` 16)) ""))) +:+ query_escape s'
  end.
Fixpoint query_unescape (s : string) : option string :=
  match s with
  | EmptyString => Some EmptyString
  | String c s' =>
      if zcode c =? 37 then
        match s' with
        | String a (String b t) =>
            match unhex a, unhex b with
            | Some x, Some y => String (zchar (16 * x + y)) <$> query_unescape t
            | _, _ => None
            end
        | _ => None
        end
      else if zcode c =? 43 then String " " <$> query_unescape s'
      else String c <$> query_unescape s'
  end.
(** strings.Cut at a byte: what comes before it, and what comes after *)
Fixpoint cut (sep : ascii) (s : string) : string * string :=
  match s with
  | EmptyString => (EmptyString, EmptyString)
  | String c s' => if Ascii.eqb c sep then (EmptyString, s') else let '(a, b) := cut sep s' in (String c a, b)
  end.
Fixpoint parse_query (fuel : nat) (q : string) : list (string * string) :=
  match fuel with
  | O => []
  | S f =>
      match q with
      | EmptyString => []
      | _ =>
          let '(kv, rest) := cut "&" q in
          let '(k, v) := cut "=" kv in
          match kv, existsb (λ c, Ascii.eqb c ";") (bytes_of kv), query_unescape k, query_unescape v with
          | String _ _, false, Some k', Some v' => (k', v') :: parse_query f rest
          | _, _, _, _ => parse_query f rest
          end
      end
  end.
Definition query_get (q key : string) : string :=
  match filter (λ kv : string * string, kv.1 = key) (parse_query (String.length q) q) with
  | (_, v) :: _ => v
  | [] => ""
  end.

(** ** healthtop jobs *)

(** jobs.go:210-219 [maxRows], the height of the terminal being [height] *)
Definition max_rows (height : Z) : Z := let n := height - 2 in if n <? 3 then 3 else n.
(** jobs.go:49-68: the query of the request; Encode sorts by key, so limit
    precedes sort *)
Definition top_query (sort name : string) (height : Z) : string :=
  let limit := if decide (name = "") then max_rows height else 0 in
  let l := if limit =? 0 then [] else ["limit=" +:+ query_escape (dec_nat limit)] in
  let s := if decide (sort = "") then [] else ["sort=" +:+ query_escape sort] in
  String.concat "&" (l ++ s).

(** strings.Contains *)
Fixpoint has_prefix (p s : string) : bool :=
  match p, s with
  | EmptyString, _ => true
  | String a p', String b s' => Ascii.eqb a b && has_prefix p' s'
  | _, EmptyString => false
  end.
Fixpoint contains (s sub : string) : bool :=
  has_prefix sub s || match s with EmptyString => false | String _ s' => contains s' sub end.
(** jobs.go:95-106 [filterJobsByName], called at 88-90 *)
Definition filter_by_name (jobs : list ajob) (name : string) : list ajob :=
  fold_left (λ acc j, if contains (aj_name j) name then acc ++ [j] else acc) jobs [].
Definition top_jobs (jobs : list ajob) (name : string) : list ajob :=
  if decide (name = "") then jobs else filter_by_name jobs name.

(** jobs.go:166-180: the text of a cell with a time *)
Definition cell_nanos (nanos : Z) : string :=
  if 2000000 <? nanos then dec_int (Z.quot nanos 1000000) +:+ " ms"
  else if 1000 <? nanos then dec_int (Z.quot nanos 1000) +:+ " " +:+ mu_s
  else dec_int nanos +:+ " ns".

(** ** healthtop hosts: hosts.go:99-115 [printHost], the status cell and whether
    it is green *)
Definition host_cell (h : hstatus) : string * bool :=
  let success := (hs_code h =? 200) && bool_decide (hs_err h = "") in
  (if success then "Success" else if hs_check h =? 0 then "Unknown" else "Failure: " +:+ hs_err h, success).

(** ** The status line (main.go:15-33) and the loops (jobs.go:20-44, hosts.go:14-38)

    times are instants since Go's zero time, which is 0; [fmt] renders them *)
Record tstatus := TStatus { ts_success : Z; ts_error : Z; ts_text : string }.
Definition tstatus0 : tstatus := TStatus 0 0 "".
Definition fmt_status (fmt : Z → string) (s : tstatus) : string :=
  if (ts_error s =? 0) && (ts_success s =? 0) then "[starting...]"
  else if ts_success s <? ts_error s then
    "[error: '" +:+ ts_text s +:+ "'    LastErrorAt: " +:+ fmt (ts_error s) +:+ "]"
  else "[success]".

(** what the loop receives; [A] is the response *)
Inductive tev (A : Type) := TResponse (a : A) (now : Z) | TError (text : string) (now : Z).
Arguments TResponse {A} a now.
Arguments TError {A} text now.
Record top (A : Type) := Top { tp_last : option A; tp_status : tstatus }.
Arguments Top {A} tp_last tp_status.
Arguments tp_last {A} t.
Arguments tp_status {A} t.
Definition top_step {A} (t : top A) (e : tev A) : top A :=
  match e with
  | TResponse a now => Top (Some a) (TStatus now (ts_error (tp_status t)) (ts_text (tp_status t)))
  | TError x now => Top (tp_last t) (TStatus (ts_success (tp_status t)) now x)
  end.
Definition top_run {A} (l : list (tev A)) : top A := fold_left top_step l (Top None tstatus0).

(** ** cmd/healthd/main.go *)

(** strings.Split(s, sep) for a one-byte separator *)
Fixpoint split_on (sep : ascii) (s : string) : list string :=
  match s with
  | EmptyString => [EmptyString]
  | String c s' =>
      if Ascii.eqb c sep then EmptyString :: split_on sep s'
      else match split_on sep s' with
           | [] => [String c EmptyString]
           | x :: l => String c x :: l
           end
  end.
(** main.go:55-79 [getHealthHostPort], [getMonitoredHostPorts] (None: os.Exit(1)),
    [getServerHostPort], each given the value of its environment variable *)
Definition health_host_port (env : string) : string := if decide (env = "") then ":5030" else env.
Definition monitored_host_ports (env : string) : option (list string) :=
  if decide (env = "") then None else Some (split_on "," env).
Definition server_host_port (env : string) : string := if decide (env = "") then ":5031" else env.
(** main.go:24-31,49: what StartNewHealthD is given to monitor *)
Definition healthd_hosts (monitored health : string) : option (list string) :=
  l ← monitored_host_ports monitored; Some (l ++ [health_host_port health]).
(** cmd/healthtop/main.go:41: the default of --source *)
Definition top_default_source : string := "localhost:5032".
