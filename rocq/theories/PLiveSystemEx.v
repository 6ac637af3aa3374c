(** * A fair execution of a process and healthd (C116) *)
From Verif Require Import PFair PHealthd PHealthdEx PHealthdLoop PHealthdLoopEx PApi PContent PContent2 PAgg PAgg2 PNum2 PWire PWire2 PWireEx PHealthEx PSystem PSystemEx PSystemEx2 SLive4.

Local Definition tm (n : nat) : Z := 3000000000 * (Z.of_nat n + 1).
Local Definition hp : string := "h:1".

(** nothing is waiting *)
Local Lemma quiet h d a s' : (∀ o, d ≠ DSnd o) → hlstep (HL h ASel [] 0 d [Some []] [] [] [] false [] []) a s' →
  match a.2 with
  | HTakeResp _ _ _ _ | HTakeNil _ _ | HTakeI _ | HTakeH _ _ | HFire _ | HStopTake _ | HQueue _ _ | HReq | HRet _ _ | HStopRet _ => False
  | _ => True
  end.
Proof.
  intros Hd St. remember (HL _ _ _ _ _ _ _ _ _ _ _ _) as s eqn:Es.
  destruct St as [| | |? ? ? ? ? ? ? El Eq|? ? ? ? ? El Eq|? ? El| | | |? ? ? ? El Hs| | |? ? ? p ? El Ep|? ? ? p ? El Ep|? ? ? ? El Ei|? ? ? ? ? El Ei|? ? ? ? El|? ? ? ? El| |? ? ? El Hi|? ? ? El]; subst s; cbn in *; try exact I.
  - discriminate Eq.
  - discriminate Eq.
  - discriminate El.
  - inversion Hs; subst. by eapply Hd.
  - by destruct p.
  - by destruct p.
  - discriminate Ei.
  - discriminate Ei.
  - discriminate El.
  - discriminate El.
  - by apply not_elem_of_nil in Hi.
  - discriminate El.
Qed.


(** the process emits and answers; the answer is taken, published, and shown to
    a handler; then the debouncer sleeps *)
Section Shown.
Context (R : resp) (h1 h2 : MHealthd.hd) (o : rorder).
Context (HR : r_hp R = hp) (H1 : consume (hd_init [hp]) R 1000 1001 = Ok h1) (Ho : rorder_ok h1 o) (H2 : recalc h1 o = Ok h2).
Local Definition v_f (n : nat) (s : hl) : option (Z * hact) * hl :=
  let h0 := hd_init [hp] in
  match n with
    | 0 => (Some (tm n, HPush 0 R), HL h0 ASel [(0%nat, Some R)] 0 (DTop 0) [Some []] [] [] [] false [] [])
    | 1 => (Some (tm n, HTakeResp 0 R 1000 1001), HL h1 AReq [] 0 (DTop 0) [Some []] [] [] [] false [] [])
    | 2 => (Some (tm n, HReq), HL h1 ASel [] 1 (DTop 0) [Some []] [] [] [] false [] [])
    | 3 => (Some (tm n, HDeb DTake), HL h1 ASel [] 0 (DChk (tm 3)) [Some []] [] [] [] false [] [])
    | 4 => (Some (tm n, HDeb DCheck), HL h1 ASel [] 0 (DSnd (tm 3)) [Some []] [] [] [] false [] [])
    | 5 => (Some (tm n, HFire o), HL h2 ASel [] 0 (DTop 0) [Some []] [] [] [] false [] [])
    | 6 => (Some (tm n, HCall 5 QIntervals), HL h2 ASel [] 0 (DTop 0) [Some []] [(5%nat, QIntervals)] [] [] false [] [])
    | 7 => (Some (tm n, HQueue 5 QIntervals), HL h2 ASel [] 0 (DTop 0) [Some []] [] [5%nat] [] false [] [])
    | 8 => (Some (tm n, HTakeI 5), HL h2 (AReplyI 5 (safe_intervals h2)) [] 0 (DTop 0) [Some []] [] [] [] false [] [])
    | 9 => (Some (tm n, HRet 5 (AnsI (safe_intervals h2))), HL h2 ASel [] 0 (DTop 0) [Some []] [] [] [] false [] [])
    | _ => match l_deb s with DTop _ => (Some (tm n, HDeb DIdle), HL h2 ASel [] 0 (DChk 0) [Some []] [] [] [] false [] [])
                            | _ => (Some (tm n, HDeb DCheck), HL h2 ASel [] 0 (DTop 0) [Some []] [] [] [] false [] []) end
  end%nat.
Lemma shown_run : ∃ x, healthd_exec ["h:1"] x ∧ healthd_fair x ∧ time_passes x ∧ never (is_act is_stop) x ∧
  (∃ t, x_act x 1%nat = Some (t, HTakeResp 0 R 1000 1001)) ∧ (∃ t, x_act x 9%nat = Some (t, HRet 5 (AnsI (hd_pub h2)))) ∧
  ∀ n, ops (acts x n) = if decide (n < 2)%nat then [] else if decide (n < 6)%nat then [HResp R 1000 1001] else [HResp R 1000 1001; HRecalc o].
Proof using All.
  set (x := run v_f (hl_init [hp])). exists x.
  set (s10 := HL h2 ASel [] 0 (DTop 0) [Some []] [] [] [] false [] []).
  set (s11 := HL h2 ASel [] 0 (DChk 0) [Some []] [] [] [] false [] []).
  assert (Hinv : ∀ n, (10 ≤ n)%nat → x_at x n = s10 ∨ x_at x n = s11).
  { apply (run_inv v_f (hl_init [hp]) (λ _ s, s = s10 ∨ s = s11)); [by left|]. intros n s Hn Hs. do 10 (destruct n as [|n]; [lia|]). cbn [v_f]. destruct Hs as [->| ->]; [by right|by left]. }
  assert (Hstep : ∀ n, match (v_f n (x_at x n)).1 with Some a => hlstep (x_at x n) a (v_f n (x_at x n)).2 | None => (v_f n (x_at x n)).2 = x_at x n end).
  { intros n. destruct n as [|[|[|[|[|[|[|[|[|[|n]]]]]]]]]].
    - pose proof (Hl_push (hl_init [hp]) (tm 0) 0 [hp] R) as H. rewrite HR in H. apply H; [done|done|by left|done].
    - pose proof (Hl_take_resp (x_at x 1%nat) (tm 1) 0 R [] 1000 1001 eq_refl eq_refl) as H. change (l_hd (x_at x 1%nat)) with (hd_init [hp]) in H. rewrite H1 in H. exact H.
    - pose proof (Hl_req (x_at x 2%nat) (tm 2)) as H. apply H; done.
    - pose proof (Hl_deb_take (x_at x 3%nat) (tm 3) (DChk (tm 3))) as H. apply H; [done|done|]. apply (Db_take threshold 0 (tm 3)).
    - pose proof (Hl_deb_check (x_at x 4%nat) (tm 4) (DSnd (tm 3))) as H. apply H; [done|]. apply (Db_check threshold (tm 3) (tm 4)).
    - pose proof (Hl_fire (x_at x 5%nat) (tm 5) o (DTop 0) eq_refl (Db_sent threshold (tm 3) (tm 5)) Ho) as H. change (l_hd (x_at x 5%nat)) with h1 in H. rewrite H2 in H. exact H.
    - pose proof (Hl_call (x_at x 6%nat) (tm 6) 5 QIntervals) as H. apply H; [done|done|]. unfold l_idle. cbn. split; [intros q; apply not_elem_of_nil|]. repeat split; try apply not_elem_of_nil; done.
    - pose proof (Hl_queue_i (x_at x 7%nat) (tm 7) 5 [] []) as H. apply H; done.
    - pose proof (Hl_take_i (x_at x 8%nat) (tm 8) 5 []) as H. apply H; done.
    - pose proof (Hl_ret_i (x_at x 9%nat) (tm 9) 5 (safe_intervals h2)) as H. apply H; done.
    - destruct (Hinv (10 + n)%nat ltac:(lia)) as [E|E]; cbn [Nat.add] in E; rewrite E; cbn [v_f l_deb s10 s11 fst snd].
      + pose proof (Hl_deb_idle s10 (tm (10 + n)) (DChk 0)) as H. apply H; [done|done|]. apply (Db_idle threshold 0).
      + pose proof (Hl_deb_check s11 (tm (10 + n)) (DTop 0)) as H. apply H; [done|]. apply (Db_check threshold 0 (tm (10 + n))). }
  assert (Hact : ∀ n t a, x_act x n = Some (t, a) → t = tm n ∧ match a with HStop _ => False | _ => True end).
  { intros n t a Ha. change (x_act x n) with (v_f n (x_at x n)).1 in Ha. destruct n as [|[|[|[|[|[|[|[|[|[|n]]]]]]]]]]; cbn [v_f fst] in Ha; try (injection Ha as <- <-; done).
    destruct (l_deb (x_at x (S (S (S (S (S (S (S (S (S (S n)))))))))))); injection Ha as <- <-; done. }
  assert (Hst : ∀ n, match l_loop (x_at x n) with ACrash => False | AReq => l_req (x_at x n) = 0 | _ => True end).
  { intros n. destruct n as [|[|[|[|[|[|[|[|[|[|n]]]]]]]]]]; try done. destruct (Hinv (10 + n)%nat ltac:(lia)) as [E|E]; cbn [Nat.add] in E; by rewrite E. }
  assert (Hno : ∀ P : hact → Prop, (∀ a s', hlstep s10 a s' → ¬ P a.2) → (∀ a s', hlstep s11 a s' → ¬ P a.2) → ∀ n, (10 ≤ n)%nat → ¬ possible hlstep (is_act P) (x_at x n)).
  { intros P Ha Hb n Hn (a&s'&Hp&Hs). destruct (Hinv n Hn) as [E|E]; rewrite E in Hs; [by apply (Ha a s')|by apply (Hb a s')]. }
  split; [|split; [|split; [|split; [|split; [by eexists|split; [by eexists|]]]]]].
  - constructor; [exact Hstep|done| |].
    + intros n E. specialize (Hst n). by rewrite E in Hst.
    + intros n (El&Er&_). specialize (Hst n). rewrite El, Er in Hst. done.
  - assert (Hs : ∀ P : hact → Prop, (∀ a s', hlstep s10 a s' → ¬ P a.2) → (∀ a s', hlstep s11 a s' → ¬ P a.2) → strongly_fair hlstep (is_act P) x).
    { intros P Ha Hb. apply (strong_impossible _ _ _ 10). by apply Hno. }
    assert (Hw : ∀ P : hact → Prop, (∀ a s', hlstep s10 a s' → ¬ P a.2) → (∀ a s', hlstep s11 a s' → ¬ P a.2) → weakly_fair hlstep (is_act P) x).
    { intros P Ha Hb. apply weak_impossible. intros n. exists (max n 10). split; [lia|]. apply Hno; [done|done|lia]. }
    assert (Q10 : ∀ a s', hlstep s10 a s' → _) by (intros a s'; apply quiet; done).
    assert (Q11 : ∀ a s', hlstep s11 a s' → _) by (intros a s'; apply quiet; done).
    constructor; [apply Hs|apply Hs|apply Hs|apply Hs|apply Hs|intros i; apply Hs|apply Hw|apply Hw| |apply Hw].
    17: { apply weak_happens. intros n. exists (10 + n)%nat. split; [lia|]. unfold happens. change (x_act x (10 + n)%nat) with (v_f (10 + n)%nat (x_at x (10 + n)%nat)).1.
      destruct (Hinv (10 + n)%nat ltac:(lia)) as [E|E]; rewrite E; cbn [v_f l_deb s10 s11 fst snd Nat.add]; eexists; (split; [reflexivity|done]). }
    all: intros [t a] s' Hst'; first [apply Q10 in Hst'|apply Q11 in Hst']; destruct a; cbn in *; try done; by intros [].
  - split.
    + intros n t a Ha. destruct (Hact n t a Ha) as [-> _]. unfold tm. lia.
    + intros T. exists (Z.to_nat T). intros n t a Hn Ha. destruct (Hact n t a Ha) as [-> _]. unfold tm. lia.
  - intros n ([t a]&Ha&Hp). destruct (Hact n t a Ha) as [_ H]. unfold is_act in Hp. cbn in Hp. by destruct a.
  - intros n. do 10 (destruct n as [|n]; [done|]). assert (E : ops (acts x 10%nat) = [HResp R 1000 1001; HRecalc o]) by done.
    rewrite !decide_False by lia. change (S (S (S (S (S (S (S (S (S (S n)))))))))) with (10 + n)%nat. induction n as [|n IH]; [exact E|].
    rewrite Nat.add_succ_r, acts_S. unfold ops in *. rewrite omap_app, IH. change (x_act x (10 + n)%nat) with (v_f (10 + n)%nat (x_at x (10 + n)%nat)).1.
    destruct (Hinv (10 + n)%nat ltac:(lia)) as [E'|E']; rewrite E'; done.
Qed.
End Shown.

Local Definition v_trs (o : rorder) (n : nat) : list sev :=
  if decide (n < 2)%nat then z_procs else if decide (n < 6)%nat then z_procs ++ [SRecv 0 1] else z_procs ++ [SRecv 0 1; SRecalc o].
Local Lemma v_grows o n : v_trs o n `prefix_of` v_trs o (S n).
Proof. unfold v_trs. repeat case_decide; try lia; [done|by eexists|done|by exists [SRecalc o]|done]. Qed.
Local Lemma v_sys o r n : sys go_float minute y_proc 0 z_procs [] → sys go_float minute y_proc 0 (z_procs ++ [SRecv 0 1]) [HResp r 1000 1001] →
  sys go_float minute y_proc 0 (v_trs o n) (if decide (n < 2)%nat then [] else if decide (n < 6)%nat then [HResp r 1000 1001] else [HResp r 1000 1001; HRecalc o]).
Proof.
  intros S0 S1. assert (S2 := sys_recalc _ _ _ _ _ _ o S1). rewrite <- app_assoc in S2. unfold v_trs. by repeat case_decide.
Qed.
Local Lemma v_ok o n : procs_ok minute y_proc (v_trs o n).
Proof.
  unfold v_trs. repeat case_decide.
  - rewrite <- (app_nil_r z_procs). apply z_ok. intros j t o'. apply not_elem_of_nil.
  - apply z_ok. intros j t o' Hin. apply elem_of_list_singleton in Hin. discriminate.
  - apply z_ok. intros j t o' Hin. repeat (apply elem_of_cons in Hin as [Hin|Hin]; [discriminate|]). by apply elem_of_nil in Hin.
Qed.
Local Lemma v_kept o n : kept minute y_start (v_trs o n).
Proof.
  intros now key Hin _. exfalso. unfold v_trs in Hin. repeat case_decide; cbn in Hin; repeat (apply elem_of_cons in Hin as [Hin|Hin]; [discriminate|]); by apply elem_of_nil in Hin.
Qed.
Local Lemma v_heard o : heard minute y_proc (v_trs o 2) 0 y_start 1.
Proof.
  unfold v_trs. rewrite decide_False, decide_True by lia. exists z_procs, []. split; [done|]. split; [by vm_compute; left|].
  intros k' Hin. by apply elem_of_nil in Hin.
Qed.
Lemma system_fair_example : ∃ x trs, healthd_exec ["h:1"] x ∧ healthd_fair x ∧ time_passes x ∧ never (is_act is_stop) x ∧
  system_exec go_float minute y_proc 0 x trs ∧ (∃ t r, x_act x 1%nat = Some (t, HTakeResp 0 r 1000 1001)) ∧
  heard minute y_proc (trs 2%nat) 0 y_start 1 ∧ (∀ n, kept minute y_start (trs n)) ∧
  ∃ t l, x_act x 9%nat = Some (t, HRet 5 (AnsI l)) ∧ map (λ p, (pa_time p, ctr_val (KTop (KEvents "e")) (pa_ia p))) l = [((y_start, 0%N), 1)].
Proof.
  pose proof (z_run1 1 ltac:(by left)) as Hr. unfold z_ops1 in Hr. revert Hr. generalize (the_order (z_state1 1)). intros o1 Hr.
  change [HResp (y_resp 0 1) 1000 1001; HRecalc o1] with ([HResp (y_resp 0 1) 1000 1001] ++ [HRecalc o1]) in Hr.
  apply hrun_snoc in Hr as (h1&Hr1&Ho&Hr2). change [HResp (y_resp 0 1) 1000 1001] with ([] ++ [HResp (y_resp 0 1) 1000 1001]) in Hr1.
  apply hrun_snoc in Hr1 as (h0&Hr0&_&Hr1). inversion Hr0; subst h0. clear H s.
  destruct (shown_run (y_resp 0 1) h1 (z_end1 1) o1) as (x&X1&X2&X3&X4&(t1&X5)&(t9&X6)&X7); [by vm_compute|exact Hr1|exact Ho|exact Hr2|].
  exists x, (v_trs o1). split; [exact X1|]. split; [exact X2|]. split; [exact X3|]. split; [exact X4|]. split; [|split; [|split; [|split]]].
  - assert (S0 : sys go_float minute y_proc 0 z_procs []).
    { assert (H := sys_nil go_float minute y_proc 0).
      apply (sys_proc _ _ _ _ _ _ 0 clock (OpCmd (CEvent "job" "e"))) in H. apply (sys_proc _ _ _ _ _ _ 0 clock OpRead) in H.
      apply (sys_proc _ _ _ _ _ _ 0 (clock + 5) (OpCmd (CEvent "k" "e"))) in H. apply (sys_proc _ _ _ _ _ _ 0 (clock + minute) OpRead) in H. exact H. }
    assert (S1 := S0). apply (y_answer _ _ 0 1 clock) in S1; [|by vm_compute..].
    constructor; [apply v_grows| |apply v_ok]. intros n. rewrite X7. apply v_sys; [exact S0|exact S1].
  - exists t1, (y_resp 0 1). exact X5.
  - apply v_heard.
  - apply v_kept.
  - exists t9, (hd_pub (z_end1 1)). split; [exact X6|]. vm_compute. reflexivity.
Qed.
