(** * What identifiers and the count of descriptors should be (C117, C118) *)
From Verif Require Export SSystem SRuntime MIdent.

(** processes [P] got their identifiers from the host names and pids [who] *)
Definition identified (who : nat → option string * Z) (P : nat → proc) : Prop :=
  ∀ i, p_inst (P i) = get_identifier (who i).1 (who i).2.
Definition pids_ok (who : nat → option string * Z) : Prop := ∀ i, 0 < (who i).2 < 2 ^ 63.
(** bytes below 128, no percent sign: what host names consist of *)
Definition ascii_name (s : string) : Prop :=
  Forall (λ c, (Ascii.N_of_ascii c < 128)%N ∧ c ≠ "%"%char) (list_ascii_of_string s).
