(** * Property theorems: the Librato sink (C48-C50, C83-C86)

    [posts c tr]: the requests made when the loop does [tr] (commands taken and
    flushes), starting from New, each with whether it succeeded. *)
From Verif Require Import SLibrato PUtf8 PLibrato PLibrato2.

Definition conf (prefix : string) : lconf := LConf prefix sanitize_key 15000000000 "host".
(** two periods: a counter touched twice, a counter, a gauge and a timing *)
Definition period1 : list lop :=
  [LCmd "cool" (WEvent "story"); LCmd "other" (WEvent "story"); LCmd "sad" (WEventErr "day" "ok");
   LCmd "rad" (WTiming "dino" 6000000); LCmd "bad" (WTiming "dino" 12000000); LCmd "tom" (WComplete 4 8000000)].
Definition period2 : list lop := [LCmd "cool" (WEvent "story")].
Definition show (p : lpost * bool) : list (string * lval) := map_to_list (po_gauges p.1).

(** ** C48 *)
Theorem C48_batch_contents : ∀ c tr now ok, let cmds := since_flush [] tr in
  (cmds = [] → posts c (tr ++ [LFlush now ok]) = posts c tr) ∧
  (cmds ≠ [] → ∃ b, batch c cmds b ∧
     (representable b → posts c (tr ++ [LFlush now ok]) = posts c tr ++ [(LPost now (Z.quot (c_period c) 1000000000) (c_source c) b, ok)]) ∧
     (¬ representable b → posts c (tr ++ [LFlush now ok]) = posts c tr)).
Proof. exact thm_batch. Qed.
Print Assumptions C48_batch_contents.

Theorem C48_names : ∀ c job e, counted c job e ++ map fst (measured c job e) = map (metric_name c) (metrics_of c job e).
Proof. exact thm_names_of. Qed.
Print Assumptions C48_names.

Example C48_example :
  map (λ p, (po_time p.1, po_period p.1, po_source p.1, length (show p), p.2)) (posts (conf "c") (period1 ++ [LFlush 7 true] ++ [LFlush 8 true] ++ period2 ++ [LFlush 9 false])) =
    [(7, 15, "host", 9%nat, true); (9, 15, "host", 2%nat, false)] ∧
  map (λ p, map (λ k, po_gauges p.1 !! k) ["c.story.count"; "c.cool.story.count"; "c.sad.day.error.count"; "c.dino.timing"; "c.tom.junk.timing"; "c.dino.count"])
      (posts (conf "c") (period1 ++ [LFlush 7 true])) =
    [[Some (LC 2); Some (LC 1); Some (LC 1); Some (LG (LGauge 2 (fofZ 18) (fofZ 6) (fofZ 12) (fofZ 180)));
      Some (LG (LGauge 1 (fofZ 8) (fofZ 8) (fofZ 8) (fofZ 64))); None]] ∧
  hits (conf "c") "c.story.count" (since_flush [] period1) = 2 ∧
  samples (conf "c") "c.dino.timing" (since_flush [] period1) = [fofZ 6; fofZ 12].
Proof. by vm_compute. Qed.

(** ** C49 *)
Theorem C49_periods_isolated : ∀ c tr1 now ok tr2,
  posts c (tr1 ++ LFlush now ok :: tr2) = posts c (tr1 ++ [LFlush now ok]) ++ posts c tr2.
Proof. exact thm_isolated. Qed.
Print Assumptions C49_periods_isolated.

Theorem C49_outcome_irrelevant : ∀ c tr1 now ok1 ok2 tr2,
  ∃ l1 l2 l3, posts c (tr1 ++ LFlush now ok1 :: tr2) = l1 ++ l2 ++ l3 ∧
    posts c (tr1 ++ LFlush now ok2 :: tr2) = l1 ++ map (λ p, (p.1, ok2)) l2 ++ l3 ∧ (length l2 ≤ 1)%nat ∧ l1 = posts c tr1.
Proof. exact thm_outcome_irrelevant. Qed.
Print Assumptions C49_outcome_irrelevant.

Example C49_example :
  map (λ p, po_gauges p.1 !! "c.story.count") (posts (conf "c") (period1 ++ [LFlush 7 false] ++ period2 ++ [LFlush 9 true])) = [Some (LC 2); Some (LC 1)].
Proof. by vm_compute. Qed.

(** ** C50 *)
Theorem C50_only_allowed : ∀ k a, a ∈ bytes_of (sanitize_key k) → allowed a.
Proof. exact thm_sanitize_allowed. Qed.
Print Assumptions C50_only_allowed.

Theorem C50_allowed_unchanged : ∀ k, (∀ a, a ∈ bytes_of k → allowed a) → sanitize_key k = k.
Proof. exact thm_sanitize_unchanged. Qed.
Print Assumptions C50_allowed_unchanged.

Theorem C50_idempotent : ∀ k, sanitize_key (sanitize_key k) = sanitize_key k.
Proof. exact thm_sanitize_idem. Qed.
Print Assumptions C50_idempotent.

(** character by character; what is not UTF-8 counts byte by byte *)
Theorem C50_per_character : ∀ k rs, reads k rs →
  length (bytes_of (sanitize_key k)) = length rs ∧
  ∀ i r, rs !! i = Some r →
    ∃ a, bytes_of (sanitize_key k) !! i = Some a ∧ ((zcode a = r ∧ allowed a) ∨ (a = "_"%char ∧ ∀ b, allowed b → zcode b ≠ r)).
Proof. exact thm_sanitize_chars. Qed.
Print Assumptions C50_per_character.

(** UTF-8 as modelled: every string is read in exactly one way *)
Theorem C50_reads : ∀ k rs, reads k rs ↔ runes k = rs.
Proof. exact runes_spec. Qed.
Print Assumptions C50_reads.

Definition bytes (l : list Z) : string := str_of (map zchar l).
Example C50_example :
  sanitize_key "a b/c" = "a_b_c" ∧ sanitize_key "ok.A:z-9_" = "ok.A:z-9_" ∧
  sanitize_key ("x" +:+ mu_s) = "x_s" ∧                       (* two bytes, one character *)
  sanitize_key (bytes [240; 159; 152; 128; 33]) = "__" ∧       (* four bytes and "!" *)
  sanitize_key (bytes [237; 160; 128; 97]) = "___a" ∧          (* a surrogate is three bad bytes *)
  runes (bytes [226; 130; 172; 97; 192; 175; 226; 130]) = [8364; 97; 65533; 65533; 65533; 65533].
Proof. by vm_compute. Qed.

(** ** C83: two metrics can have one name *)
Theorem C83_names_distinct_refuted : ∃ c job1 e1 job2 e2 m1 m2,
  m1 ∈ metrics_of c job1 e1 ∧ m2 ∈ metrics_of c job2 e2 ∧ m1 ≠ m2 ∧ metric_name c m1 = metric_name c m2 ∧
  map (λ p, po_gauges p.1 !! metric_name c m1) (posts c [LCmd job1 e1; LCmd job2 e2; LFlush 0 true]) = [Some (LC 2)].
Proof.
  exists (conf ""), "login", (WEvent "error"), "web", (WEventErr "login" "m"), (M_job_event "login" "error"), (M_err "login").
  split; [right; left|]. split; [left|]. split; [done|]. split; [done|]. by vm_compute.
Qed.
Print Assumptions C83_names_distinct_refuted.

(** a completion and a timing named like a status *)
Example C83_example_timing : metric_name (conf "p") (M_complete "job" "success") = metric_name (conf "p") (M_job_timing "job" "success") ∧
  metric_name (conf "p") (M_event "a.b") = metric_name (conf "p") (M_job_event "a" "b").
Proof. by vm_compute. Qed.

(** missing: names with dots, and events named "error" or like a status *)
Theorem C83_names_distinct_partial : ∀ c m1 m2, plain_metric m1 → plain_metric m2 → metric_name c m1 = metric_name c m2 → m1 = m2.
Proof. exact thm_names_plain. Qed.
Print Assumptions C83_names_distinct_partial.
(** exactly: any two metrics share a name when they are of one sort (counts,
    durations or values) and read the same when written with dots; so a count is
    never added to a duration or a value *)
Theorem C83_names_exactly_partial : ∀ c m1 m2, metric_name c m1 = metric_name c m2 ↔ sort_of m1 = sort_of m2 ∧ about m1 = about m2.
Proof. exact thm_names_exactly. Qed.
Print Assumptions C83_names_exactly_partial.
Example C83_example_exactly : about (M_err "login") = about (M_job_event "login" "error") ∧
  about (M_event "a.timing") ≠ about (M_timing "a") ∧ metric_name (conf "p") (M_event "a.timing") = "p.a.timing.count".
Proof. by vm_compute. Qed.
Example C83_example_plain : Forall plain_metric (metrics_of (conf "p") "cool job" (WEvent "story")) ∧ plain_metric (M_complete "job" "success").
Proof.
  split; [repeat constructor; try (apply (bool_decide_unpack _); by vm_compute)|].
  split; apply (bool_decide_unpack _); by vm_compute.
Qed.

(** ** C84: one measurement can lose the batch *)
Lemma gauge_finite c v : finite v → ∀ job e, LCmd job e ∈ [LCmd "j" (WEvent "e"); LCmd "j" (WGauge "big" v)] →
  ∀ k x, (k, x) ∈ measured c job e → finite x.
Proof.
  intros Hf job e [[= -> ->]|[[= -> ->]|Hin]%elem_of_cons]%elem_of_cons k x Hv; [inversion Hv| |inversion Hin].
  cbn in Hv. rewrite !elem_of_cons in Hv. destruct Hv as [[= _ ->]|[[= _ ->]|Hv]]; [done|done|inversion Hv].
Qed.
Theorem C84_batch_always_sent_refuted : ∃ c tr now,
  (∀ job e, LCmd job e ∈ tr → ∀ k v, (k, v) ∈ measured c job e → finite v) ∧
  hits c "e.count" (since_flush [] tr) = 1 ∧ posts c (tr ++ [LFlush now true]) = [].
Proof.
  exists (conf ""), [LCmd "j" (WEvent "e"); LCmd "j" (WGauge "big" (fofZ (10 ^ 200)))], 0.
  split; [|by vm_compute]. apply gauge_finite. apply marshals_finite. by vm_compute.
Qed.
Print Assumptions C84_batch_always_sent_refuted.

(** missing: batches with a summary that is not finite *)
Theorem C84_batch_sent_partial : ∀ c tr now ok,
  since_flush [] tr ≠ [] →
  (∀ k g, summarises (samples c k (since_flush [] tr)) g → finite (lg_sum g) ∧ finite (lg_min g) ∧ finite (lg_max g) ∧ finite (lg_ss g)) →
  ∃ b, posts c (tr ++ [LFlush now ok]) = posts c tr ++ [(LPost now (Z.quot (c_period c) 1000000000) (c_source c) b, ok)].
Proof. exact thm_sent. Qed.
Print Assumptions C84_batch_sent_partial.

(** ** C85: Stop discards what has not been flushed *)
Theorem C85_stop_sends_all_refuted : ∃ c tr g,
  gosteps c lgo0 tr g ∧ lstopped tr ∧ emitted tr ≠ [] ∧
  ∀ tr' g', gosteps c g tr' g' → lb_posts (go_lib g') = [].
Proof. exact thm_stop_loses. Qed.
Print Assumptions C85_stop_sends_all_refuted.

(** missing: the commands since the last flush, and those still queued *)
Theorem C85_sent_partial : ∀ c tr g, gosteps c lgo0 tr g →
  lb_posts (go_lib g) = posts c (loop_ops [] tr) ∧ emitted tr = cmds_of (loop_ops [] tr) ++ go_q g.
Proof. exact thm_go. Qed.
Print Assumptions C85_sent_partial.

Theorem C85_after_stop_partial : ∀ c tr1 g tr2 g', gosteps c lgo0 tr1 g → lstopped tr1 → gosteps c g tr2 g' →
  lb_posts (go_lib g') = lb_posts (go_lib g) ∧ emitted tr1 ++ emitted tr2 = cmds_of (loop_ops [] tr1) ++ go_q g'.
Proof. exact thm_go_stopped. Qed.
Print Assumptions C85_after_stop_partial.

(** ** C86: after Stop an Emit can block for ever *)
Theorem C86_emit_returns_refuted : ∀ c, ∃ tr g, gosteps c lgo0 tr g ∧ lstopped tr ∧
  ∀ tr' g', gosteps c g tr' g' → ∀ job' e' g'', ¬ gostep c g' (GEmit job' e') g''.
Proof. exact thm_go_blocked. Qed.
Print Assumptions C86_emit_returns_refuted.

(** missing: a sink that has been stopped *)
Theorem C86_emit_returns_partial : ∀ c tr g job e, gosteps c lgo0 tr g → go_phase g = LbRun →
  ∃ tr' g', gosteps c g (tr' ++ [GEmit job e]) g' ∧ tr' ∈ [[]; [GTake]].
Proof. exact thm_go_running. Qed.
Print Assumptions C86_emit_returns_partial.

Example C85_C86_example : ∃ g,
  gosteps (conf "") lgo0 [GEmit "j" (WEvent "e"); GEmit "j" (WEvent "f"); GTake; GTick 5 true; GEmit "j" (WEvent "g"); GTake] g ∧
  go_phase g = LbRun ∧ length (lb_posts (go_lib g)) = 1%nat ∧ go_q g = [("j", WEvent "g")].
Proof.
  eexists. split; [do 6 (econstructor; [constructor; unfold lib_buff; cbn; lia|]); constructor|]. by vm_compute.
Qed.
