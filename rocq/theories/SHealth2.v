(** * Key/values by history (C02) *)
From Verif Require Export SHealth.

(** the key/values set on a stream or on a job *)
Definition stream_sets (s : nat) (a : api) : option (string * string) :=
  match a with ApiStreamKv s' k v => if decide (s' = s) then Some (k, v) else None | _ => None end.
Definition job_sets (j : nat) (a : api) : option (string * string) :=
  match a with ApiJobKv j' k v => if decide (j' = j) then Some (k, v) else None | _ => None end.
(** [v] is the last value set for [key] *)
Definition set_last (sets : api → option (string * string)) (hist : list api) (key v : string) : Prop :=
  ∃ h1 a h2, hist = h1 ++ a :: h2 ∧ sets a = Some (key, v) ∧ Forall (λ b, ∀ v', sets b ≠ Some (key, v')) h2.
