(** * Model of stack traces (stack/stack.go, stack/frame.go)

    The Go runtime is a table [rt] from program counters to functions, and the
    current call stack a list of program counters, innermost first. *)
From Verif Require Export Base MFmt.

(** runtime.FuncForPC(pc).Name() and .FileLine(pc), runtime.GOROOT() *)
Record runtime := Runtime {
  rt_func : N → option string;
  rt_fileline : N → string * Z;
  rt_goroot : string }.

(** stack/frame.go:12-19 [Frame] *)
Record frame := Frame {
  f_file : string; f_line : Z; f_name : string; f_pkg : string;
  f_system : bool; f_pc : N }.

(** strings.Index(s, c) and strings.LastIndex(s, c) for one byte: position or
    None for -1 *)
Fixpoint index_byte (c : ascii) (s : string) : option nat :=
  match s with
  | EmptyString => None
  | String x s' => if Ascii.eqb x c then Some 0%nat else S <$> index_byte c s'
  end.
Fixpoint last_index_byte (c : ascii) (s : string) : option nat :=
  match s with
  | EmptyString => None
  | String x s' =>
      match last_index_byte c s' with
      | Some n => Some (S n)
      | None => if Ascii.eqb x c then Some 0%nat else None
      end
  end.
(** s[:n] and s[n:] *)
Fixpoint str_take (n : nat) (s : string) : string :=
  match n, s with S n', String x s' => String x (str_take n' s') | _, _ => EmptyString end.
Fixpoint str_drop (n : nat) (s : string) : string :=
  match n, s with S n', String _ s' => str_drop n' s' | _, _ => s end.
(** strings.HasPrefix *)
Definition has_prefix (s p : string) : bool := String.prefix p s.

(** stack/frame.go:49-64 [packageAndName] on the function's name *)
Definition package_and_name (name : string) : string * string :=
  let '(pkg, name) :=
    match last_index_byte "/" name with
    | Some i => (str_take i name +:+ "/", str_drop (i + 1) name)
    | None => ("", name)
    end in
  match index_byte "." name with
  | Some p => (pkg +:+ str_take p name, str_drop (p + 1) name)
  | None => (pkg, name)
  end.

(** stack/frame.go:69-71 [isSystemPackage] *)
Definition is_system_package (rt : runtime) (file : string) : bool := has_prefix file (rt_goroot rt).

(** stack/frame.go:22-35 [NewFrame] and 38-43 [Func] *)
Definition new_frame (rt : runtime) (pc : N) : frame :=
  match (if (pc =? 0)%N then None else rt_func rt pc) with
  | None => Frame "" 0 "" "" false pc
  | Some fname =>
      let '(pkg, name) := package_and_name fname in
      let '(file, line) := rt_fileline rt (pc - 1)%N in
      Frame file line name pkg (is_system_package rt file) pc
  end.

(** stack/stack.go:11-14 [Trace]; [None] is the nil slice *)
Record trace := Trace { t_stack : list N; t_frames : option (list frame) }.

(** stack/stack.go:9 *)
Definition MaxStackDepth : nat := 50.

(** stack/stack.go:16-22 [NewTrace]; [callers] is the call stack seen by
    runtime.Callers: itself, NewTrace, NewTrace's caller, ... *)
Definition new_trace (skip : nat) (callers : list N) : trace :=
  Trace (take MaxStackDepth (drop (2 + skip) callers)) None.

(** stack/stack.go:25-35 [Frames], with its caching *)
Definition trace_frames (rt : runtime) (t : trace) : trace * list frame :=
  match t_frames t with
  | Some fs => (t, fs)
  | None => let fs := map (new_frame rt) (t_stack t) in (Trace (t_stack t) (Some fs), fs)
  end.

(** stack/frame.go:45-47 [Frame.String], stack/stack.go:38-47 [Trace.Stack] *)
Definition frame_text (f : frame) : string := f_file f +:+ ":" +:+ dec_int (f_line f) +:+ " " +:+ f_name f.
Definition trace_text (rt : runtime) (t : trace) : string :=
  fold_left (λ buf f, buf +:+ frame_text f +:+ String "010" "") (trace_frames rt t).2 "".
