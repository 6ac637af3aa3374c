(** * Model of healthd's API handlers (healthd/api.go) *)
From Verif Require Export MHealthd.

(** ** Comparison of strings: Go's [<] compares bytes *)
Fixpoint str_ltb (s t : string) : bool :=
  match s, t with
  | _, EmptyString => false
  | EmptyString, String _ _ => true
  | String a s', String b t' =>
      if N.ltb (code a) (code b) then true
      else if N.ltb (code b) (code a) then false
      else str_ltb s' t'
  end.

(** api.go:17-32 [Job] *)
Record ajob := AJob {
  aj_name : string;
  aj_count : Z; aj_success : Z; aj_verror : Z; aj_panic : Z; aj_error : Z; aj_junk : Z;
  aj_sum : Z; aj_ss : f64; aj_min : Z; aj_max : Z; aj_avg : f64; aj_stddev : f64 }.

(** api.go:315-328: average and standard deviation.  [math.Pow(x, 2)] is the
    correctly rounded square of [x] for the values that occur (its mantissa is
    squared once and rescaled by a power of two). *)
Definition job_avg (j : jobagg) : f64 :=
  if t_count (j_timer j) =? 0 then f0
  else fdiv (fofZ (t_sum (j_timer j))) (fofZ (t_count (j_timer j))).
Definition job_stddev (j : jobagg) : f64 :=
  let n := t_count (j_timer j) in
  if n =? 0 then f0
  else if n =? 1 then f0
  else
    let sum := fofZ (t_sum (j_timer j)) in
    let num := fsub (fmul (fofZ n) (t_ss (j_timer j))) (fmul sum sum) in
    let div := fofZ (w64 (n * w64 (n - 1))) in
    fsqrt (fdiv num div).

(** api.go:329-343 *)
Definition api_job (k : string) (j : jobagg) : ajob :=
  AJob k (t_count (j_timer j)) (j_success j) (j_verror j) (j_panic j) (j_error j) (j_junk j)
    (t_sum (j_timer j)) (t_ss (j_timer j)) (t_min (j_timer j)) (t_max (j_timer j)) (job_avg j) (job_stddev j).

(** api.go:263-300 [jobSorters] *)
Definition job_sorters (sort : string) : option (ajob → ajob → bool) :=
  if bool_decide (sort = "name") then Some (λ a b, str_ltb (aj_name a) (aj_name b))
  else if bool_decide (sort = "count") then Some (λ a b, aj_count b <? aj_count a)
  else if bool_decide (sort = "count_success") then Some (λ a b, aj_success b <? aj_success a)
  else if bool_decide (sort = "count_validation_error") then Some (λ a b, aj_verror b <? aj_verror a)
  else if bool_decide (sort = "count_panic") then Some (λ a b, aj_panic b <? aj_panic a)
  else if bool_decide (sort = "count_error") then Some (λ a b, aj_error b <? aj_error a)
  else if bool_decide (sort = "count_junk") then Some (λ a b, aj_junk b <? aj_junk a)
  else if bool_decide (sort = "total_time") then Some (λ a b, aj_sum b <? aj_sum a)
  else if bool_decide (sort = "avg") then Some (λ a b, fgtb (aj_avg a) (aj_avg b))
  else if bool_decide (sort = "min") then Some (λ a b, aj_min b <? aj_min a)
  else if bool_decide (sort = "max") then Some (λ a b, aj_max b <? aj_max a)
  else if bool_decide (sort = "stddev") then Some (λ a b, fgtb (aj_stddev a) (aj_stddev b))
  else None.

(** [sort.Sort]: some function of the comparison and the list *)
Definition sorting_fn (A : Type) : Type := (A → A → bool) → list A → list A.

(** api.go:302-306 [sortJobs] *)
Definition sort_jobs (srt : sorting_fn ajob) (jobs : list ajob) (sort : string) : list ajob :=
  match job_sorters sort with Some by_ => srt by_ jobs | None => jobs end.

(** api.go:308-358 [filterJobs]; [order] is the order in which Go visits the
    jobs of [overall]; [None] is nil *)
Definition filter_jobs (srt : sorting_fn ajob) (overall : option ia) (order : list (string * jobagg))
    (sort : string) (limit : Z) : option (list ajob) :=
  match overall with
  | None => None
  | Some _ =>
      let jobs := map (λ kj, api_job kj.1 kj.2) order in
      let jobs := sort_jobs srt jobs sort in
      if 0 <? limit then
        let max := Z.of_nat (length jobs) in
        let limit := if max <? limit then max else limit in
        Some (take (Z.to_nat limit) jobs)
      else Some jobs
  end.

(** api.go:201-211 [combineAggregations] *)
Definition combine (aggs : list ia) : option ia :=
  match aggs with [] => None | i :: _ => Some (merge_all (ia_start i) aggs) end.

(** api.go:217-228 [getLimit] of the query's limit: strconv.ParseInt in base
    10 for 64 bits, any failure giving 0 *)
Definition digit_of (c : ascii) : option Z :=
  let n := Z.of_N (code c) in if (48 <=? n) && (n <=? 57) then Some (n - 48) else None.
Fixpoint parse_digits (acc : Z) (s : string) : option Z :=
  match s with
  | EmptyString => Some acc
  | String c s' => match digit_of c with Some d => parse_digits (10 * acc + d) s' | None => None end
  end.
Definition parse_int (s : string) : option Z :=
  let '(neg, s) := match s with
    | String c s' => if bool_decide (code c = 45%N) then (true, s')
                     else if bool_decide (code c = 43%N) then (false, s') else (false, s)
    | EmptyString => (false, s)
    end in
  match s with
  | EmptyString => None
  | _ =>
      match parse_digits 0 s with
      | Some n =>
          if neg then if n <=? 2 ^ 63 then Some (- n) else None
          else if n <? 2 ^ 63 then Some n else None
      | None => None
      end
  end.
Definition get_limit (limit : string) : Z := default 0 (parse_int limit).

(** api.go:142-163: the answers of the handlers Overall, Jobs and Hosts, before
    rendering; [aggs] is what getAggregationSequence returned, [hosts] what
    getHosts did *)
Definition handler_overall (aggs : list ia) : option ia := combine aggs.
Definition handler_jobs (srt : sorting_fn ajob) (aggs : list ia) (order : list (string * jobagg)) (sort limit : string)
    : option (list ajob) :=
  filter_jobs srt (combine aggs) order sort (get_limit limit).
(** api.go:165-173 and 360-364 *)
Definition handler_hosts (srt : sorting_fn hstatus) (hosts : list hstatus) : list hstatus :=
  srt (λ a b, str_ltb (hs_hp a) (hs_hp b)) hosts.
