(** * Property theorems: healthd's API (C59-C61, C66, C78, C79) *)
From Verif Require Import SApi SRequest PApi PApiEx PRequest PHealthEx.

(** ** C59 *)

(** [srt] is any correct sorting algorithm; [order] is the order in which the
    job map was enumerated; [rest] are the rows cut off by the limit *)
Theorem C59_jobs_listed : ∀ srt o order sort limit,
  correct_sort srt → order ≡ₚ map_to_list (ia_jobs o) →
  ∃ js rest, filter_jobs srt (Some o) order sort limit = Some js ∧
    (∀ r, r ∈ js ++ rest → true_row o r) ∧
    NoDup (map aj_name (js ++ rest)) ∧
    (∀ name, is_Some (ia_jobs o !! name) ↔ name ∈ map aj_name (js ++ rest)) ∧
    Z.of_nat (length js) = (if decide (0 < limit) then Z.min limit (Z.of_nat (size (ia_jobs o))) else Z.of_nat (size (ia_jobs o))) ∧
    (column sort → no_nan sort (js ++ rest) → StronglySorted (may_precede sort) (js ++ rest)).
Proof. exact thm_filter_jobs. Qed.
Print Assumptions C59_jobs_listed.

(** the limit in the query: an int64 numeral means itself, anything else 0 *)
Theorem C59_limit_parsed : ∀ s,
  (∀ n, int_numeral s n → get_limit s = n) ∧ ((∀ n, ¬ int_numeral s n) → get_limit s = 0).
Proof. exact thm_limit. Qed.
Print Assumptions C59_limit_parsed.

Theorem C59_correct_sorts_exist : ∀ A, correct_sort (@isort A).
Proof. exact @isort_correct. Qed.
Print Assumptions C59_correct_sorts_exist.

Example C59_example :
  x_jobs "name" "" = Some ["a"; "b"; "c"] ∧ x_jobs "count" "2" = Some ["c"; "a"] ∧
  x_jobs "avg" "7" = Some ["a"; "b"; "c"] ∧ x_jobs "total_time" "+1" = Some ["a"] ∧
  x_jobs "count_junk" "1" = Some ["a"] ∧ x_jobs "max" "-5" = Some ["a"; "b"; "c"] ∧
  get_limit "9223372036854775808" = 0 ∧ get_limit "12x" = 0.
Proof. vm_compute. auto 10. Qed.

(** ** C60 *)

(** The formula used cancels: two completions one nanosecond apart give NaN. *)
Theorem C60_stddev_nan_refuted :
  aj_stddev <$> ((λ j, api_job "j" j) <$> ia_jobs x_cancel !! "j") = Some S754_nan.
Proof. exact cancel_nan. Qed.
Print Assumptions C60_stddev_nan_refuted.

(** ** C61 *)
Theorem C61_overall_null_without_intervals : ∀ aggs, handler_overall aggs = None ↔ aggs = [].
Proof. exact thm_overall_null. Qed.
Print Assumptions C61_overall_null_without_intervals.

(** counters add up (as int64s) and exactly the jobs of some interval appear *)
Theorem C61_overall_sums : ∀ i aggs,
  (∀ x, x ∈ i :: aggs → int64_ia x) →
  ∃ o, handler_overall (i :: aggs) = Some o ∧ ia_start o = ia_start i ∧
    (∀ c, ctr_val c o = w64 (zsum (map (ctr_val c) (i :: aggs)))) ∧
    (∀ j, is_Some (ia_jobs o !! j) ↔ ∃ x, x ∈ i :: aggs ∧ is_Some (ia_jobs x !! j)).
Proof. exact thm_overall_sums. Qed.
Print Assumptions C61_overall_sums.

Example C61_example : ∃ o, handler_overall [x_three; x_cancel; x_three] = Some o ∧
  ctr_val (KJob "c" KError) o = 4 ∧ ctr_val (KJob "j" KSuccess) o = 2 ∧ ia_start o = 60 ∧ size (ia_jobs o) = 4%nat.
Proof. eexists. split; [reflexivity|]. vm_compute. auto. Qed.

(** ** C66 *)

(** [w1] and [j]: the world and job the handler [next] starts with; it makes
    any API calls [hist] and leaves status [code].  Every sink then gets one
    completion. *)
Theorem C66_request_reported : ∀ w s route path st,
  reachable w → w_streams w !! s = Some st →
  ∃ w1 j cs1, w_log w1 = w_log w ++ cs1 ∧
    calls_to (st_sinks st) route (event_with "starting_request" [("path", path)]) cs1 ∧
    ∀ next hist w2 code, next w1 j = (w2, Some code) → api_run w1 hist = Ok w2 →
    ∃ w' cs2 st2 status, health_middleware w s route path next = Ok w' ∧
      w_streams w2 !! s = Some st2 ∧ w_log w' = w_log w2 ++ cs2 ∧ class_of code status ∧
      calls_to (st_sinks st2) route
        (completion_with w2 (w_clock w (w_ticks w)) status [("code", dec_int code); ("path", path)]) cs2.
Proof. exact thm_middleware. Qed.
Print Assumptions C66_request_reported.

(** A handler that panics leaves the start event only.  (None of healthd's
    handlers can.) *)
Theorem C66_panic_leaves_no_completion : ∀ w s route path st,
  reachable w → w_streams w !! s = Some st →
  ∃ w1 j cs1, calls_to (st_sinks st) route (event_with "starting_request" [("path", path)]) cs1 ∧
    w_log w1 = w_log w ++ cs1 ∧
    ∀ next, next w1 j = (w1, None) → health_middleware w s route path next = Ok w1.
Proof. exact thm_middleware_panic. Qed.
Print Assumptions C66_panic_leaves_no_completion.

Definition ex_request (code : Z) : list (nat * string * payload * option string) :=
  match health_middleware ex_world 0 "/jobs" "/healthd/jobs" (λ w j, (w, Some code)) with
  | Ok w => map (λ c, (c_sink c, c_job c, c_what c, c_view c !! "code")) (w_log w)
  | _ => []
  end.
Example C66_example :
  ex_request 404 =
  [(7%nat, "/jobs", PEvent "starting_request", None); (8%nat, "/jobs", PEvent "starting_request", None);
   (7%nat, "/jobs", PComplete 4 100, Some "404"); (8%nat, "/jobs", PComplete 4 200, Some "404")] ∧
  map (λ x, x.1.2) (drop 2 (ex_request 200)) = [PComplete 0 100; PComplete 0 200] ∧
  map (λ x, x.1.2) (drop 2 (ex_request 422)) = [PComplete 1 100; PComplete 1 200] ∧
  map (λ x, x.1.2) (drop 2 (ex_request 500)) = [PComplete 3 100; PComplete 3 200].
Proof. vm_compute. auto. Qed.

(** ** C78 *)

(** A poll whose reply was read and decoded, whatever its status code *)
Theorem C78_good_poll_reported : ∀ w s hp ts code nanos y stk st,
  reachable w → w_streams w !! s = Some st →
  ∃ w' cs, poll w s hp ts (FReply code nanos y) stk =
      Ok (w', Resp hp ts None code nanos (y_inst y) (y_dur y) (y_aggs y)) ∧
    w_log w' = w_log w ++ cs ∧
    calls_to (st_sinks st) "poll" (completion_with w (w_clock w (w_ticks w)) 0 [("host_port", hp)]) cs.
Proof. exact thm_poll_ok. Qed.
Print Assumptions C78_good_poll_reported.

(** A poll that failed *)
Theorem C78_failed_poll_reported : ∀ w s hp ts f step x id text stk st,
  reachable w → w_streams w !! s = Some st → failed_at f step x → x = EUser id text →
  ∃ w' r cs1 cs2, poll w s hp ts f stk = Ok (w', r) ∧
    r_hp r = hp ∧ r_ts r = ts ∧ r_code r = fetch_code f ∧ r_err r = Some text ∧
    w_log w' = w_log w ++ cs1 ++ cs2 ∧
    calls_to (st_sinks st) "poll" (error_event w' step x) cs1 ∧
    calls_to (st_sinks st) "poll" (completion_with w (w_clock w (w_ticks w)) 3 [("host_port", hp)]) cs2.
Proof. exact thm_poll_failed. Qed.
Print Assumptions C78_failed_poll_reported.

Example C78_example :
  match poll ex_world 0 "h:1" 5 (FDecode 200 3 (EUser 1 "bad json") (Reply "i" 60 [])) [] with
  | Ok (w, r) => r = Resp "h:1" 5 (Some "bad json") 200 3 "i" 60 [] ∧ length (w_log w) = 4%nat
  | _ => False
  end.
Proof. vm_compute. auto. Qed.

(** ** C79 *)
Theorem C79_hosts_sorted : ∀ srt hosts,
  correct_sort srt →
  handler_hosts srt hosts ≡ₚ hosts ∧ StronglySorted (λ a b, str_le (hs_hp a) (hs_hp b)) (handler_hosts srt hosts).
Proof. exact thm_hosts. Qed.
Print Assumptions C79_hosts_sorted.

Example C79_example : map hs_hp (handler_hosts isort (map hstatus0 ["b:80"; "a:81"; "B:1"; "a:8"])) = ["B:1"; "a:8"; "a:81"; "b:80"].
Proof. vm_compute. reflexivity. Qed.
