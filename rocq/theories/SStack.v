(** * What stack traces and the Bugsnag sink should do (C51, C67, C68, C75-C77) *)
From Verif Require Export MBugsnag.

(** byte [c] occurs in [s] *)
Fixpoint occurs (c : ascii) (s : string) : Prop :=
  match s with EmptyString => False | String x s' => x = c ∨ occurs c s' end.

(** [path] is empty or ends with a slash *)
Definition is_path (path : string) : Prop := path = "" ∨ ∃ p, path = p +:+ "/".

(** [file] lies in the directory [dir] *)
Definition inside (dir file : string) : Prop := ∃ rest, file = dir +:+ "/" +:+ rest.

(** commands accepted by the sink during a trace *)
Definition enqueued (tr : list bact) : list bcmd :=
  omap (λ a, match a with BEnqueue c => Some c | _ => None end) tr.
