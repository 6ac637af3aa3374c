(** * Concrete executions with a process whose clock steps back *)
From Verif Require Import PApi SSystem SClock PContent PContent2 PAgg PAgg2 PHealthd PNum2 PWire PWire2 PWireEx PHealthEx PHealthdEx PSystem PSystemEx PClock PClock2.

(** two visits to the minute of [clock], one to the next, an answer when the
    clock is in the next again: the commands of the two visits are given *)
Definition b_events (c1 c2 : list cmd) : list sev :=
  map (λ c, SProc 0 clock (OpCmd c)) c1 ++ [SProc 0 (clock + minute) (OpCmd (CEvent "k" "x"))] ++
  map (λ c, SProc 0 clock (OpCmd c)) c2 ++ [SProc 0 (clock + minute) OpRead].
Section back.
  Context (c1 c2 : list cmd).
  Notation B := (b_events c1 c2).
  Definition b_k : nat := (length c1 + 1 + length c2)%nat.
  Definition b_h : list (Z * aop) := take b_k (hist 0 B).
  Definition b_out : list ia := match get_metrics minute (60 * minute) b_h (clock + minute) with Ok out => out | Crash _ => [] end.
  Definition b_serve : Z * string := serve_health go_float (λ _, 0) "" "/health" (xs 0) minute b_out.
  Definition b_poll : res (world * resp) := poll ex_world 0 "h:1" 7 (fetch_of (λ _ _, 0%N) b_serve.1 5 ENil (Reply "" 0 []) b_serve.2) [].
  Definition b_resp : resp := match b_poll with Ok x => x.2 | Crash _ => y_fail end.
  Definition b_state : MHealthd.hd := final [EResp b_resp] ["h:1"].
  Definition b_recalc : hop := HRecalc (the_order b_state).
  Definition b_end : MHealthd.hd := match recalc b_state (the_order b_state) with Ok s => s | Crash _ => hd_init [] end.
  Definition b_tr : list sev := (B ++ [SRecv 0 b_k]) ++ [SRecalc (the_order b_state)].
  Definition b_ops : list hop := [HResp b_resp 1000 1001; b_recalc].

  Lemma b_procs l : (∀ e, e ∈ l → ∃ i t o, e = SProc i t o) → ∀ tr ops, sys go_float minute y_proc 0 tr ops → sys go_float minute y_proc 0 (tr ++ l) ops.
  Proof using Type.
    intros Hl. induction l as [|e l IH]; intros tr ops H; [by rewrite app_nil_r|].
    destruct (Hl e) as (i & t & o & ->); [left|]. change (SProc i t o :: l) with ([SProc i t o] ++ l). rewrite app_assoc. apply IH; [|by constructor].
    intros e' He. apply Hl. by right.
  Qed.
  Lemma b_sys : hist 0 B !! b_k = Some (clock + minute, OpRead) →
    match get_metrics minute (60 * minute) b_h (clock + minute) with Ok _ => True | _ => False end →
    match b_poll with Ok _ => True | _ => False end → sys go_float minute y_proc 0 b_tr b_ops.
  Proof using Type.
    intros Hk Hg Hp. unfold b_tr, b_ops. change [HResp b_resp 1000 1001; b_recalc] with (([] ++ [HResp b_resp 1000 1001]) ++ [b_recalc]).
    apply sys_recalc. unfold b_resp. destruct b_poll as [[w' r]|] eqn:Ep; [|done]. destruct b_serve as [code body] eqn:Es.
    eapply (sys_recv _ _ _ _ _ _ 0 b_k (clock + minute) b_out "" code body (λ _ _, 0%N) 5 ENil (Reply "" 0 []) ex_world 0%nat 7 [] w'); try done.
    - rewrite <- (app_nil_l B). apply b_procs; [|constructor]. intros e He. unfold b_events in He. set_unfold. naive_solver.
    - change (take b_k (hist 0 B)) with b_h. unfold b_out. by destruct get_metrics.
    - unfold b_poll in Ep. rewrite Es in Ep. exact Ep.
  Qed.
  Lemma b_run : succeeds [EResp b_resp] ["h:1"] = true →
    match recalc b_state (the_order b_state) with Ok _ => True | _ => False end →
    trace [EResp b_resp] ["h:1"] = [HResp b_resp 1000 1001] → hrun (hd_init ["h:1"]) b_ops (Ok b_end).
  Proof using Type.
    intros Hs Hr Ht. unfold b_ops. change [HResp b_resp 1000 1001; b_recalc] with ([HResp b_resp 1000 1001] ++ [b_recalc]).
    apply hrun_snoc. exists b_state. split; [rewrite <- Ht; by apply run_final|]. split; [apply the_order_ok|].
    cbn. unfold b_end. by destruct (recalc b_state (the_order b_state)).
  Qed.
End back.

(** one event "e" before the clock went on, one and an "f" after it stepped back *)
Definition b1 : list cmd := [CEvent "j" "e"].
Definition b2 : list cmd := [CEvent "j" "e"; CEvent "j" "f"].
(** as many emissions, but of another event *)
Definition b3 : list cmd := [CEvent "j" "f"].
Definition b_names (s : MHealthd.hd) : list (gotime * (Z * Z)) :=
  map (λ p, (pa_time p, (ctr_val (KTop (KEvents "e")) (pa_ia p), ctr_val (KTop (KEvents "f")) (pa_ia p)))) (hd_pub s).
Lemma b_names_elem s k a b : (k, (a, b)) ∈ b_names s →
  ∃ p, p ∈ hd_pub s ∧ pa_time p = k ∧ ctr_val (KTop (KEvents "e")) (pa_ia p) = a ∧ ctr_val (KTop (KEvents "f")) (pa_ia p) = b.
Proof. unfold b_names. intros H. apply elem_of_list_fmap in H as (p & [= -> -> ->] & Hp). exists p. done. Qed.
Lemma b12_sys : sys go_float minute y_proc 0 (b_tr b1 b2) (b_ops b1 b2).
Proof. apply b_sys; by vm_compute. Qed.
Lemma b12_run : hrun (hd_init ["h:1"]) (b_ops b1 b2) (Ok (b_end b1 b2)).
Proof. apply b_run; by vm_compute. Qed.
Lemma b13_sys : sys go_float minute y_proc 0 (b_tr b1 b3) (b_ops b1 b3).
Proof. apply b_sys; by vm_compute. Qed.
Lemma b13_run : hrun (hd_init ["h:1"]) (b_ops b1 b3) (Ok (b_end b1 b3)).
Proof. apply b_run; by vm_compute. Qed.
Lemma b12_shown : b_names (b_end b1 b2) = [((y_start, 0%N), (1, 1)); ((y_start + minute, 0%N), (0, 0))].
Proof. vm_compute. reflexivity. Qed.
Lemma b13_shown : b_names (b_end b1 b3) = [((y_start, 0%N), (1, 0)); ((y_start + minute, 0%N), (0, 0))].
Proof. vm_compute. reflexivity. Qed.
Lemma b_good s : forallb (λ c, (zcode c <? 128) && negb (Ascii.eqb c "%")) (list_ascii_of_string s) = true → good_name s.
Proof. apply (name_ok good_name good_admits). Qed.
Lemma b12_hist : history_ok good_name (λ _, 0) minute (hist 0 (b_tr b1 b2)).
Proof.
  intros t o Hin. cbn in Hin.
  repeat (apply elem_of_cons in Hin as [Hin|Hin];
    [injection Hin as -> ->; split; [intros c [= <-] || intros c [=]; cbn [cmd_ok]; split_and!; try done; by apply b_good|vm_compute; split_and!; congruence]|]); by apply elem_of_nil in Hin.
Qed.
Lemma b12_kept : kept minute y_start (b_tr b1 b2).
Proof.
  intros now key Hin _. repeat (apply elem_of_cons in Hin as [Hin|Hin]; [discriminate|]). by apply elem_of_nil in Hin.
Qed.
Lemma cx_stepped_back : ∃ tr ops st p k t, let s := y_start in
  sys go_float minute y_proc 0 tr ops ∧ hrun (hd_init ["h:1"]) ops (Ok st) ∧
  history_ok good_name (p_off (y_proc 0)) minute (hist 0 tr) ∧ kept minute s tr ∧
  hist 0 tr !! k = Some (t, OpRead) ∧ s + minute ≤ t ∧ length (hist 0 tr) = S k ∧ SRecv 0 k ∈ tr ∧
  p ∈ hd_pub st ∧ pa_time p = (s, 0%N) ∧
  tally (KTop (KEvents "e")) (cmds_in minute s (hist 0 tr)) = 2 ∧ ctr_val (KTop (KEvents "e")) (pa_ia p) = 1.
Proof.
  destruct (b_names_elem (b_end b1 b2) (y_start, 0%N) 1 1) as (p & Hp & H1 & H2 & _); [rewrite b12_shown; left|].
  exists (b_tr b1 b2), (b_ops b1 b2), (b_end b1 b2), p, (b_k b1 b2), (clock + minute). cbv zeta.
  split; [exact b12_sys|]. split; [exact b12_run|]. split; [exact b12_hist|]. split; [exact b12_kept|].
  split; [by vm_compute|]. split; [by vm_compute|]. split; [by vm_compute|].
  split; [unfold b_tr; rewrite !elem_of_app; left; right; left|]. split; [exact Hp|].
  split; [exact H1|]. split; [by vm_compute|exact H2].
Qed.

(** what [C137_one_visit_partial] asks for *)
Definition b_vs (c1 c2 : list cmd) : list (Z * list (Z * aop)) :=
  [(y_start, map (λ c, (clock, OpCmd c)) c1); (y_start + minute, [(clock + minute, OpCmd (CEvent "k" "x"))]);
   (y_start, map (λ c, (clock, OpCmd c)) c2); (y_start + minute, [(clock + minute, OpRead)])].
Lemma b12_visits : visits minute (b_h b1 b2 ++ [(clock + minute, OpRead)]) (b_vs b1 b2).
Proof.
  assert (vis minute (b_h b1 b2 ++ [(clock + minute, OpRead)]) = b_vs b1 b2) as <- by (vm_compute; reflexivity). apply vis_visits.
Qed.
Lemma b12_asked :
  get_metrics minute (60 * minute) (b_h b1 b2) (clock + minute) = Ok (b_out b1 b2) ∧
  (∃ w', b_poll b1 b2 = Ok (w', b_resp b1 b2)) ∧ counted [] (b_resp b1 b2) ∧
  hrun (hd_init ["h:1"]) [HResp (b_resp b1 b2) 1000 1001] (Ok (b_state b1 b2)).
Proof.
  split; [vm_compute; reflexivity|]. split; [|split].
  - assert (match b_poll b1 b2 with Ok _ => True | _ => False end) as H by (by vm_compute).
    unfold b_resp. destruct (b_poll b1 b2) as [[w' r]|]; [|done]. by exists w'.
  - split; [apply (bool_decide_unpack _); by vm_compute|]. vm_compute. exact I.
  - assert (trace [EResp (b_resp b1 b2)] ["h:1"] = [HResp (b_resp b1 b2) 1000 1001]) as <- by (by vm_compute). apply run_final. by vm_compute.
Qed.
Lemma b_left : left_of (emissions_at y_start (b_vs b1 b2)) b2 ∧ left_of (emissions_at y_start (b_vs b1 b3)) b1.
Proof.
  split.
  - exists [b1], []. split; [vm_compute; reflexivity|]. split; [intros x H; by apply elem_of_nil in H|]. intros x [= <-]. done.
  - exists [], [b3]. split; [vm_compute; reflexivity|]. split; [|done]. intros x H. by apply elem_of_list_singleton in H as ->.
Qed.
