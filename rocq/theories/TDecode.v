(** * Property theorems: answers of any shape (C108) *)
From Verif Require Import SDecode PDecode PWireEx.

(** ** C108: what healthd and healthtop make of a JSON document *)

(** healthd reads exactly what Go's rules allow to be read, and fails otherwise *)
Theorem C108_answers : ∀ loc code nanos x part v body, json_text v body →
  (∀ y, fetch_of loc code nanos x part body = FReply code nanos y ↔ an_answer loc v y) ∧
  ((¬ ∃ y, an_answer loc v y) → fetch_of loc code nanos x part body = FDecode code nanos x part).
Proof. exact thm_answer. Qed.
Print Assumptions C108_answers.
(** the order of the members does not matter *)
Theorem C108_any_order : ∀ loc l l' y, l ≡ₚ l' → one_each l → an_answer loc (JObj l) y ↔ an_answer loc (JObj l') y.
Proof. exact thm_order. Qed.
Print Assumptions C108_any_order.
(** and members of other names are ignored *)
Theorem C108_other_members : ∀ loc k x l1 l2 y,
  (∀ name, name ∈ ["instance_id"; "interval_duration"; "aggregations"] → ¬ same_letters k name) →
  an_answer loc (JObj (l1 ++ (k, x) :: l2)) y ↔ an_answer loc (JObj (l1 ++ l2)) y.
Proof. exact thm_unknown. Qed.
Print Assumptions C108_other_members.
(** healthtop, its page of jobs *)
Theorem C108_jobs_page : ∀ x body now v, json_text v body →
  (∀ rows, top_jobs_event x body now = TResponse rows now ↔ a_page "jobs" a_job_row v rows) ∧
  ((¬ ∃ rows, a_page "jobs" a_job_row v rows) → top_jobs_event x body now = TError x now).
Proof. exact thm_jobs_page. Qed.
Print Assumptions C108_jobs_page.
(** and its page of hosts *)
Theorem C108_hosts_page : ∀ x body now v, json_text v body →
  (∀ rows, top_hosts_event x body now = TResponse rows now ↔ a_page "hosts" a_host_row v rows) ∧
  ((¬ ∃ rows, a_page "hosts" a_host_row v rows) → top_hosts_event x body now = TError x now).
Proof. exact thm_hosts_page. Qed.
Print Assumptions C108_hosts_page.

(** what is seen of an answer *)
Definition seen (f : fetch) : option (string * Z * list (option (Z * list (string * (Z * bool)) * list (string * Z) * bool))) :=
  match f with
  | FReply _ _ y => Some (y_inst y, y_dur y, map (fmap (λ d, (ia_start (d_ia d),
      map (λ kj, (kj.1, (t_count (j_timer kj.2), bool_decide (am_timers (j_maps kj.2) = ∅)))) (map_to_list (ia_jobs (d_ia d))),
      map_to_list (am_events (ia_maps (d_ia d))), d_null d))) (y_aggs y))
  | _ => None
  end.
Definition asked : string → fetch := fetch_of (λ _ _, 0%N) 200 1 (EUser 1 "bad") (Reply "" 0 []).
Example C108_example : map (λ body, seen (asked body)) [
    (* any order, any case, a member of another name; counts default to zero *)
    "{""Version"":[1], ""AGGREGATIONS"":[{""interval_start"":""0001-01-01T00:00:01Z"",""jobs"":{""a"":{""count"":3},""b"":{}},""Events"":{""e"":-2}},null], ""interval_duration"":60, ""instance_id"":""h.1""}";
    (* the last of several counts *)
    "{""instance_id"":""x"",""Instance_ID"":""y"",""aggregations"":[{""events"":{""e"":1,""e"":2}}]}";
    (* nil pointers *)
    "{""aggregations"":[{""jobs"":{""j"":{""timers"":{""t"":null}}}},{""jobs"":{""j"":null}},{""jobs"":{""j"":null,""j"":{}}}]}";
    "null"; "{}";
    (* not answers *)
    "[]"; "{""interval_duration"":1.5}"; "{""interval_duration"":""60""}"; "{""interval_duration"":1e2}"; "{""interval_duration"":9223372036854775808}";
    "{""aggregations"":{}}"; "{""aggregations"":[{""events"":{""e"":1.0,""e"":2}}]}"; "{""instance_id"":7}"; "<html>"; "" ] =
  [ Some ("h.1", 60, [Some (1000000000, [("b", (0, true)); ("a", (3, true))], [("e", -2)], false); None]);
    Some ("y", 0, [Some (0, [], [("e", 2)], false)]);
    Some ("", 0, [Some (0, [("j", (0, true))], [], true); Some (0, [], [], true); Some (0, [("j", (0, true))], [], false)]);
    Some ("", 0, []); Some ("", 0, []);
    None; None; None; None; None; None; None; None; None; None ].
Proof. vm_compute. reflexivity. Qed.
(** an answer is read from it, by the rules *)
Example C108_example_rules : an_answer (λ _ _, 0%N) (JObj [("Interval_Duration", JNum "60"); ("aggregations", JArr [JNull])]) (Reply "" 60 [None]).
Proof. apply answer_ok. reflexivity. Qed.
Example C108_example_not : ¬ ∃ y, an_answer (λ _ _, 0%N) (JObj [("interval_duration", JStr "60")]) y.
Proof. intros [y H%answer_ok]. discriminate H. Qed.
