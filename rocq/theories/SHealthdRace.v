(** * Data races in healthd, and the interval duration on its pages (C123, C124) *)
From Verif Require Export MHealthdRace.

(** goroutine [a] is about to write what [b] is about to write or read *)
Definition race_at (s : hr) (a b : hactor) (l : loc) : Prop :=
  a ≠ b ∧ Wr l ∈ accs s a ∧ (Wr l ∈ accs s b ∨ Rd l ∈ accs s b).
(** [s] is reached by a healthd with [hosts] hosts *)
Definition reaches (hosts : nat) (tr : list hlab) (s : hr) : Prop := hrsteps (hr0 hosts) tr s.
