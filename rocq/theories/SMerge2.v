(** * What the timer of a job is taken to have measured on a host *)
From Verif Require Export SMerge.

(** the durations of the job's completions; a job mentioned but not completed
    counts as a duration of 0 *)
Definition timed_as (j : string) (l : list cmd) : list Z :=
  match of_job j l with
  | [] => []
  | l => match map snd (completions_of l) with [] => [0] | ds => ds end
  end.
Definition all_timed_as (d s : Z) (j : string) (hosts : list (list (Z * aop) * Z)) : list Z :=
  concat (map (λ ht, timed_as j (cmds_in d s ht.1)) hosts).
