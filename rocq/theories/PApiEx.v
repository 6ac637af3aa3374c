(** * Concrete API executions *)
From Verif Require Import SApi PApi PMerge PContent.

(** two completions of 0.134861366 s and 0.134861367 s *)
Definition x_cancel : ia :=
  fold_left ia_apply [CComplete "j" Success 134861366; CComplete "j" Success 134861367] (new_ia 0).
Lemma cancel_nan : aj_stddev <$> ((λ j, api_job "j" j) <$> ia_jobs x_cancel !! "j") = Some S754_nan.
Proof. vm_compute. reflexivity. Qed.

(** three jobs for sorting *)
Definition x_three : ia := fold_left ia_apply
  [CComplete "b" Success 10; CComplete "a" Junk 30; CComplete "a" Success 10; CComplete "c" Error 5;
   CComplete "c" Error 6; CComplete "c" Success 7] (new_ia 60).
Definition x_order : list (string * jobagg) := map_to_list (ia_jobs x_three).
Definition x_jobs (sort limit : string) : option (list string) :=
  map aj_name <$> handler_jobs isort [x_three] x_order sort limit.
