(** * Specification for the StatsD sink: which lines a command stands for *)
From Verif Require Export MStatsd.

(** dot-joined sanitised non-empty parts, the configured prefix first *)
Definition metric_name (o : opts) (parts : list string) : string :=
  String.concat "." (map (o_san o) (filter (λ p, p ≠ "") (o_prefix o :: parts))).

(** one line of the StatsD protocol *)
Definition line (o : opts) (parts : list string) (value ty : string) : string :=
  metric_name o parts +:+ ":" +:+ value +:+ "|" +:+ ty +:+ nl.

(** the line for the bare event and the line for job.event, unless skipped *)
Definition both (o : opts) (job event suffix value ty : string) : list string :=
  (if o_skip_top o then [] else [line o [event; suffix] value ty]) ++
  (if o_skip_nested o then [] else [line o [job; event; suffix] value ty]).

Definition lines_of (o : opts) (c : cmd) : list string :=
  match c with
  | CEvent j e => both o j e "" "1" "c"
  | CEventErr j e _ => both o j e "error" "1" "c"
  | CTiming j e n => both o j e "" (nanos_text n) "ms"
  | CGauge j e v => both o j e "" (gauge_text o v) "g"
  | CComplete j st n => [line o [j; status_string st] (nanos_text n) "ms"]
  end.

(** metric lines longer than a datagram are dropped *)
Definition sendable (o : opts) (l : list cmd) : list string :=
  filter (λ s, zlen s ≤ 1440) (concat (map (lines_of o) l)).

Definition sop_cmds (h : list sop) : list cmd :=
  omap (λ a, match a with DoCmd c => Some c | DoFlush => None end) h.

(** [packed groups pending ls]: the lines [ls], in order, cut into groups, one
    group per datagram, and the lines still waiting *)
Definition packed (sent : list string) (udp : string) (ls : list string) : Prop :=
  ∃ groups pending,
    sent = map str_concat groups ∧ udp = str_concat pending ∧
    ls = concat groups ++ pending.

(** bytes the default sanitiser lets through *)
Definition name_byte (c : ascii) : Prop :=
  (65 ≤ code c ≤ 90 ∨ 97 ≤ code c ≤ 122 ∨ 48 ≤ code c ≤ 57)%N ∨ c = "_"%char ∨ c = "."%char ∨ c = "$"%char.

(** a value text that cannot be confused with the protocol's own bytes *)
Definition plain_text (s : string) : Prop :=
  byte_count ":" s = 0%nat ∧ byte_count "|" s = 0%nat ∧ byte_count newline s = 0%nat.
