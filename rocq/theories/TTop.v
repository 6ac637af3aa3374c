(** * Property theorems: healthtop and healthd's command line (C70, C89-C91) *)
From Verif Require Import STop PTop PApi PApiEx.

(** ** C70 *)

(** the rows shown are the received ones whose name contains the given text, in order *)
Theorem C70_filter_by_name : ∀ jobs name, kept (λ j, occurs name (aj_name j)) jobs (top_jobs jobs name).
Proof. exact thm_filter. Qed.
Print Assumptions C70_filter_by_name.

(** healthd reads from the query what healthtop put there *)
Theorem C70_query_understood : ∀ sort name height, height < 2 ^ 63 →
  let q := top_query sort name height in
  query_get q "sort" = sort ∧ get_limit (query_get q "limit") = (if decide (name = "") then max_rows height else 0).
Proof. exact thm_query. Qed.
Print Assumptions C70_query_understood.

(** The whole path, from healthd's intervals to the rows on the screen.  With a
    name every matching job appears (the request has no limit); without one the
    first rows that fit do.  [rest]: the rows healthd left out. *)
Theorem C70_rows_listed : ∀ srt aggs o order sort name height,
  correct_sort srt → combine aggs = Some o → order ≡ₚ map_to_list (ia_jobs o) → height < 2 ^ 63 →
  let q := top_query sort name height in
  ∃ js rest, handler_jobs srt aggs order (query_get q "sort") (query_get q "limit") = Some js ∧
    let rows := top_jobs js name in
    (∀ r, r ∈ rows → true_row o r ∧ occurs name (aj_name r)) ∧ NoDup (map aj_name rows) ∧
    (name ≠ "" → ∀ n, n ∈ map aj_name rows ↔ is_Some (ia_jobs o !! n) ∧ occurs name n) ∧
    (name = "" → Z.of_nat (length rows) = Z.min (max_rows height) (Z.of_nat (size (ia_jobs o)))) ∧
    (∀ r, r ∈ js ++ rest → true_row o r) ∧
    (column sort → no_nan sort (js ++ rest) → StronglySorted (may_precede sort) (rows ++ if decide (name = "") then rest else [])).
Proof. exact thm_listed. Qed.
Print Assumptions C70_rows_listed.

(** the status line tells the outcome of the last request *)
Theorem C70_status_line : ∀ A (fmt : Z → string) (l : list (tev A)), ticking l →
  (l = [] → fmt_status fmt (tp_status (top_run l)) = "[starting...]") ∧
  (∀ l' a t, l = l' ++ [TResponse a t] → fmt_status fmt (tp_status (top_run l)) = "[success]") ∧
  (∀ l' x t, l = l' ++ [TError x t] →
     fmt_status fmt (tp_status (top_run l)) = "[error: '" +:+ x +:+ "'    LastErrorAt: " +:+ fmt t +:+ "]").
Proof. exact @thm_status. Qed.
Print Assumptions C70_status_line.

(** what is shown is the last response, also while requests fail *)
Theorem C70_last_response_shown : ∀ A (l : list (tev A)) a, tp_last (top_run l) = Some a ↔ last_response l a.
Proof. exact @thm_last. Qed.
Print Assumptions C70_last_response_shown.

(** any text survives the query *)
Theorem C70_escape_round_trip : ∀ s, query_unescape (query_escape s) = Some s.
Proof. exact unescape_escape. Qed.
Print Assumptions C70_escape_round_trip.

Definition x_events : list (tev (list string)) :=
  [TResponse ["a"; "b"] 10; TError "refused" 20; TError "timeout" 30].
Example C70_example :
  top_query "avg" "" 40 = "limit=38&sort=avg" ∧ top_query "a b&c" "x" 40 = "sort=a+b%26c" ∧ top_query "" "" 1 = "limit=3" ∧
  query_get (top_query "a b&c" "x" 40) "sort" = "a b&c" ∧
  (map aj_name <$> handler_jobs isort [x_three] x_order (query_get (top_query "count" "" 4) "sort") (query_get (top_query "count" "" 4) "limit"))
    = Some ["c"; "a"; "b"] ∧
  ((λ js, map aj_name (top_jobs js "b")) <$> handler_jobs isort [x_three] x_order "count" "") = Some ["b"] ∧
  fmt_status dec_int (tp_status (top_run x_events)) = "[error: 'timeout'    LastErrorAt: 30]" ∧
  tp_last (top_run x_events) = Some ["a"; "b"] ∧
  fmt_status dec_int (tp_status (top_run (x_events ++ [TResponse [] 40]))) = "[success]".
Proof. vm_compute. auto 20. Qed.
Example C70_example_ticking : ticking x_events ∧ last_response x_events ["a"; "b"] ∧ occurs "ob" "/jobs".
Proof.
  split; [split; repeat constructor|]. split; [|by exists "/j", "s"].
  exists [], [TError "refused" 20; TError "timeout" 30], 10. split; [done|]. repeat constructor.
Qed.

(** ** C89 *)

(** a host is green with "Success" exactly when its last poll answered 200
    without an error *)
Theorem C89_host_cell : ∀ h,
  ((host_cell h).2 = true ↔ hs_code h = 200 ∧ hs_err h = "") ∧
  ((host_cell h).2 = true → (host_cell h).1 = "Success") ∧
  ((host_cell h).2 = false → hs_check h = 0 → (host_cell h).1 = "Unknown") ∧
  ((host_cell h).2 = false → hs_check h ≠ 0 → (host_cell h).1 = "Failure: " +:+ hs_err h).
Proof. exact thm_host_cell. Qed.
Print Assumptions C89_host_cell.

(** a time is shown as the whole number of its unit that it contains *)
Theorem C89_time_cell : ∀ n, in_int64 n → cell_text n (cell_nanos n).
Proof. exact thm_cell. Qed.
Print Assumptions C89_time_cell.

Example C89_example :
  cell_nanos 2000001 = "2 ms" ∧ cell_nanos 2000000 = "2000 " +:+ mu_s ∧ cell_nanos 1000 = "1000 ns" ∧ cell_nanos (-5) = "-5 ns" ∧
  host_cell (HStatus "h" 5 "" 0 "" 0 200 5 5) = ("Success", true) ∧
  host_cell (HStatus "h" 5 "" 0 "refused" 0 0 0 0) = ("Failure: refused", false) ∧
  host_cell (hstatus0 "h") = ("Unknown", false).
Proof. vm_compute. auto 10. Qed.

(** ** C90 *)

(** healthtop's default source is port 5032, healthd's default is 5031 *)
Theorem C90_defaults_meet_refuted : ¬ reaches top_default_source (server_host_port "").
Proof. exact thm_default_refuted. Qed.
Print Assumptions C90_defaults_meet_refuted.

Theorem C90_reached_on_5032_partial : reaches top_default_source (server_host_port ":5032").
Proof. exact thm_default_partial. Qed.
Print Assumptions C90_reached_on_5032_partial.

(** ** C91 *)
Theorem C91_hosts_monitored : ∀ monitored health,
  (healthd_hosts monitored health = None ↔ monitored = "") ∧
  (∀ l, l ≠ [] → Forall (free_of ",") l → monitored = String.concat "," l → monitored ≠ "" →
     healthd_hosts monitored health = Some (l ++ [if decide (health = "") then ":5030" else health])).
Proof. exact thm_host_list. Qed.
Print Assumptions C91_hosts_monitored.

(** every value is such a list *)
Theorem C91_every_value_is_a_list : ∀ s,
  s = String.concat "," (split_on "," s) ∧ split_on "," s ≠ [] ∧ Forall (free_of ",") (split_on "," s).
Proof. exact (split_spec ","). Qed.
Print Assumptions C91_every_value_is_a_list.

Example C91_example :
  healthd_hosts "a:1,b:2" "" = Some ["a:1"; "b:2"; ":5030"] ∧ healthd_hosts "a:1," ":9" = Some ["a:1"; ""; ":9"] ∧
  healthd_hosts "" "" = None.
Proof. vm_compute. auto. Qed.
