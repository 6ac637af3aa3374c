(** * Property theorems: from the emissions to healthd (C34)

    The sums of squares are floats; that they stay finite is a matter of real
    numbers, hence the axioms below. *)
From Verif Require Import SWire SAgg PNum2 PWire PWire2 PWireEx PWire3 PClock2.

(** Whatever was emitted into a sink, under good names, with int64 times and
    finite gauges, whatever its clock did, /health answers 200 and healthd reads from the answer the
    intervals the sink has (without the samples of errors).
    missing: names that are not UTF-8 or contain a percent sign, other gauges *)
Theorem C34_emissions_arrive_partial : ∀ ff off msg inst d retain h t out loc code nanos x part,
  float_codec ff → good_name inst → in_int64 d → 0 < d → d ≤ retain →
  get_metrics d retain h t = Ok out → history_ok good_name off d (h ++ [(t, OpRead)]) →
  ∃ body, serve_health ff off msg "/health" inst d out = (200, body) ∧
    fetch_of loc code nanos x part body = FReply code nanos (Reply inst d (wire_ias off loc out)).
Proof. exact thm_end_to_end_any. Qed.
Print Assumptions C34_emissions_arrive_partial.

Definition x_history : list (Z * aop) := map (λ c, (clock, OpCmd c)) x_cmds.
Example C34_example_emissions :
  good_name "host.1" ∧ in_int64 minute ∧ clock_monotone (x_history ++ [(clock + minute, OpRead)]) ∧
  get_metrics minute (60 * minute) x_history (clock + minute) = Ok (served x_cmds) ∧
  history_ok good_name (λ _, 330) minute (x_history ++ [(clock + minute, OpRead)]).
Proof.
  assert (HG : ∀ s, forallb (λ c, (zcode c <? 128) && negb (Ascii.eqb c "%")) (list_ascii_of_string s) = true → good_name s).
  { intros s. apply (name_ok good_name good_admits). }
  split; [by apply HG|]. split; [done|]. split; [repeat constructor; vm_compute; congruence|]. split; [by vm_compute|].
  intros t o Hin. assert (Ht : t = clock ∨ t = clock + minute). { cbn in Hin. set_unfold. naive_solver. }
  split; [|destruct Ht as [->| ->]; vm_compute; split_and!; congruence].
  intros c ->. cbn in Hin. repeat (apply elem_of_cons in Hin as [Hin|Hin]; [injection Hin as -> ->; cbn [cmd_ok]; split_and!; try done; by apply HG|]).
  apply elem_of_cons in Hin as [Hin|Hin]; [done|]. by apply elem_of_nil in Hin.
Qed.
