(** * Property theorems: identifiers, descriptors (C117, C118) *)
From Verif Require Import SIdent PIdent PWireEx PIdentEx.

(** ** C117: identifiers tell processes apart *)
(** not when the name of the host cannot be found: two machines *)
Theorem C117_unknown_hosts_refuted : ∃ (h : option string) (p : Z), get_identifier None p = get_identifier h p ∧ h ≠ None.
Proof. exact thm_unknown. Qed.
Print Assumptions C117_unknown_hosts_refuted.
(** nor when a restarted program has the pid it had: healthd takes the answer
    of the restarted program for one it knows, and never shows its emissions *)
Theorem C117_restarted_refuted : ∃ who P d tr ops a s,
  identified who P ∧ pids_ok who ∧ who 0%nat = who 1%nat ∧ (∀ i, (who i).1 ≠ None) ∧
  sys go_float d P 0 tr ops ∧ hrun (hd_init ["h:1"]) ops (Ok a) ∧
  heard d P tr 1 s 1 ∧ CEvent "job" "y" ∈ cmds_in d s (take 1 (hist 1 tr)) ∧
  hd_pub a ≠ [] ∧ ∀ p, p ∈ hd_pub a → ctr_val (KTop (KEvents "y")) (pa_ia p) = 0.
Proof. exact thm_restart. Qed.
Print Assumptions C117_restarted_refuted.
(** exactly when two identifiers are the same *)
Theorem C117_same_identifier : ∀ a b p q, 0 ≤ p < 2 ^ 63 → 0 ≤ q < 2 ^ 63 → get_identifier a p = get_identifier b q ↔
  p = q ∧ (a = b ∨ a = None ∧ b = Some "hostname_errored" ∨ a = Some "hostname_errored" ∧ b = None).
Proof. exact thm_ident. Qed.
Print Assumptions C117_same_identifier.
(** processes with different pids or on different hosts whose names are known
    are told apart *)
Theorem C117_told_apart_partial : ∀ who P, identified who P → pids_ok who → (∀ i, (who i).1 ≠ None) → (∀ i j, who i = who j → i = j) →
  ∀ i j, p_inst (P i) = p_inst (P j) → i = j.
Proof. exact thm_apart. Qed.
Print Assumptions C117_told_apart_partial.
(** an identifier passes through JSON and the log unchanged *)
Theorem C117_passes : ∀ p, 0 ≤ p → good_name (get_identifier None p) ∧ ∀ h, ascii_name h → good_name (get_identifier (Some h) p).
Proof. exact (λ p Hp, conj (thm_ident_unknown p Hp) (λ h, thm_ident_good h p Hp)). Qed.
Print Assumptions C117_passes.
Example C117_example : get_identifier (Some "web.1") 234 = "web.1.234" ∧ get_identifier None 7 = "hostname_errored.7" ∧ ascii_name "web.1" ∧
  identified (λ i, (Some "web", Z.of_nat i + 1)) (λ i, Proc "h:1" (get_identifier (Some "web") (Z.of_nat i + 1)) 60 (λ _, 0)) ∧
  (∀ i j : nat, (Some "web", Z.of_nat i + 1) = (Some "web", Z.of_nat j + 1) → i = j).
Proof. split; [by vm_compute|]. split; [by vm_compute|]. split; [by repeat constructor|]. split; [by intros i|]. intros i j [= E]. lia. Qed.

(** ** C118: the gauge num_fds_used is the number of open descriptors *)
(** no: the one opened to count them is counted too, with all of them in use
    there is no gauge, and on darwin it is always 0 *)
Theorem C118_fds_refuted : ∃ limit fds, (fd_usage_linux limit fds).1 ≠ Some (Z.of_nat (size fds)) ∧
  (fd_usage_linux (size fds) fds).1 = None ∧ (fd_usage_darwin fds).1 ≠ Some (Z.of_nat (size fds)).
Proof. exact thm_fds_refuted. Qed.
Print Assumptions C118_fds_refuted.
(** one more than there are, as long as one more can be opened, and all are as
    before *)
Theorem C118_fds_partial : ∀ limit fds,
  (fd_usage_linux limit fds).2 = fds ∧
  ((size fds < limit)%nat → (fd_usage_linux limit fds).1 = Some (Z.of_nat (size fds) + 1)) ∧
  ((limit ≤ size fds)%nat → (fd_usage_linux limit fds).1 = None).
Proof. exact thm_fds_linux. Qed.
Print Assumptions C118_fds_partial.
Theorem C118_gauge_partial : ∀ o r limit fds v, ro_fds o = true → rd_fds r = (fd_usage_linux limit fds).1 →
  ("num_fds_used", v) ∈ report o r ↔ (size fds < limit)%nat ∧ v = fofZ (Z.of_nat (size fds) + 1).
Proof. exact thm_fds_gauge. Qed.
Print Assumptions C118_gauge_partial.
Example C118_example : let fds := {[0; 1; 2; 7]}%nat in
  (fd_usage_linux 1024 fds).1 = Some 5 ∧ (fd_usage_linux 4 fds).1 = None ∧ (fd_usage_darwin fds).1 = Some 0.
Proof. by vm_compute. Qed.
