(** * A concrete execution of two processes and healthd *)
From Verif Require Import PApi SSystem PContent PContent2 PAgg PAgg2 PHealthd PNum2 PWire PWire2 PWireEx PHealthEx PHealthdEx PSystem.

(** processes found at the same address have identifiers "", "x", "xx", ... *)
Fixpoint xs (n : nat) : string := match n with O => "" | S n => String "x" (xs n) end.
Lemma xs_length n : String.length (xs n) = n.
Proof. induction n; cbn; congruence. Qed.
Lemma xs_good n : good_name (xs n).
Proof. apply (name_ok good_name good_admits). induction n; cbn; [done|]. by rewrite IHn. Qed.
Definition y_proc (i : nat) : proc := Proc "h:1" (xs i) (60 * minute) (λ _, 0).

(** two processes emit in the minute of [clock]; healthd takes an early answer
    of the first, purges, and after the minute takes an answer of both, the
    second process' only after a failure.  The answers of the first are taken
    in the order given, a later one of the second is never taken. *)
Definition y_events : list sev :=
  [SPurge (λ _, clock);
   SProc 0 clock (OpCmd (CEvent "job" "e")); SProc 0 clock OpRead; SProc 1 clock (OpCmd (CTiming "job" "t" 7)); SRecv 0 1;
   SProc 0 (clock + 5) (OpCmd (CEvent "k" "e")); SProc 1 (clock + 6) (OpCmd (CEvent "job" "e")); SProc 1 (clock + 7) (OpCmd (CComplete "job" Success 40));
   SPurge (λ _, clock + minute); SFail;
   SProc 0 (clock + minute) OpRead; SProc 1 (clock + minute) OpRead; SProc 1 (clock + minute) (OpCmd (CEvent "job" "e")); SProc 1 (clock + minute) OpRead;
   SRecv 0 3; SRecv 1 3].

Lemma y_hist2 i : hist (S (S i)) y_events = [].
Proof. by vm_compute. Qed.
Lemma y_procs : procs_ok minute y_proc y_events.
Proof.
  split.
  - intros i j E _. cbn in E. rewrite <- (xs_length i), <- (xs_length j). by rewrite E.
  - intros i. apply xs_good.
  - intros i. cbn. done.
  - intros [|[|i]]; [| |rewrite y_hist2; constructor]; repeat constructor; vm_compute; congruence.
  - assert (HG : ∀ s, forallb (λ c, (zcode c <? 128) && negb (Ascii.eqb c "%")) (list_ascii_of_string s) = true → good_name s).
    { intros s. apply (name_ok good_name good_admits). }
    intros [|[|i]]; [| |rewrite y_hist2; intros t o Hin; by apply elem_of_nil in Hin]; intros t o Hin; cbn in Hin;
      repeat (apply elem_of_cons in Hin as [Hin|Hin];
        [injection Hin as -> ->; split; [intros c [= <-] || intros c [=]; cbn [cmd_ok]; split_and!; try done; by apply HG|vm_compute; split_and!; congruence]|]); by apply elem_of_nil in Hin.
  - intros i s. assert (length (cmds_in minute s (hist i y_events)) ≤ length (hist i y_events))%nat as H by apply omap_length_le.
    assert (length (hist i y_events) ≤ length y_events)%nat as H2 by apply omap_length_le. change (length y_events) with 16%nat in H2. lia.
Qed.

(** the answers *)
Definition y_out (i k : nat) : list ia :=
  match hist i y_events !! k with
  | Some (t, _) => match get_metrics minute (60 * minute) (take k (hist i y_events)) t with Ok out => out | Crash _ => [] end
  | None => [] end.
Definition y_serve (i k : nat) : Z * string := serve_health go_float (λ _, 0) "" "/health" (xs i) minute (y_out i k).
Definition y_poll (i k : nat) : res (world * resp) :=
  poll ex_world 0 "h:1" 7 (fetch_of (λ _ _, 0%N) (y_serve i k).1 5 ENil (Reply "" 0 []) (y_serve i k).2) [].
Definition y_fail : resp := Resp "h:1" 7 (Some "refused") 0 0 "" 0 [].
Definition y_resp (i k : nat) : resp := match y_poll i k with Ok x => x.2 | Crash _ => y_fail end.
Definition y_eops : list eop :=
  [EPurge clock; EResp (y_resp 0 1); EPurge (clock + minute); EResp y_fail; EResp (y_resp 0 3); EResp (y_resp 1 3)].
Definition y_ops : list hop :=
  [HPurge (λ _, clock); HResp (y_resp 0 1) 1000 1001; HPurge (λ _, clock + minute); HResp y_fail 1000 1001;
   HResp (y_resp 0 3) 1000 1001; HResp (y_resp 1 3) 1000 1001].
Definition y_state : MHealthd.hd := final y_eops ["h:1"].
Definition y_end : MHealthd.hd := match recalc y_state (the_order y_state) with Ok s => s | Crash _ => hd_init [] end.
Definition y_recalc : hop := HRecalc (the_order y_state).

Lemma y_answer tr ops i k t : sys go_float minute y_proc 0 tr ops → hist i tr !! k = Some (t, OpRead) →
  take k (hist i tr) = take k (hist i y_events) → hist i y_events !! k = Some (t, OpRead) →
  match get_metrics minute (60 * minute) (take k (hist i y_events)) t with Ok _ => True | _ => False end →
  match y_poll i k with Ok _ => True | _ => False end →
  sys go_float minute y_proc 0 (tr ++ [SRecv i k]) (ops ++ [HResp (y_resp i k) 1000 1001]).
Proof.
  intros HS Hk Htk Hk' Hg Hp. unfold y_resp. destruct (y_poll i k) as [[w' r]|] eqn:Ep; [|done].
  destruct (y_serve i k) as [code body] eqn:Es.
  eapply (sys_recv _ _ _ _ _ _ i k t (y_out i k) "" code body (λ _ _, 0%N) 5 ENil (Reply "" 0 []) ex_world 0%nat 7 [] w'); try done.
  - rewrite Htk. unfold y_out. rewrite Hk'. cbn [p_retain y_proc]. by destruct get_metrics.
  - unfold y_poll in Ep. rewrite Es in Ep. exact Ep.
Qed.
Lemma y_sys : sys go_float minute y_proc 0 (y_events ++ [SRecalc (the_order y_state)]) (y_ops ++ [y_recalc]).
Proof.
  apply sys_recalc. unfold y_events, y_ops.
  assert (H := sys_nil go_float minute y_proc 0).
  apply (sys_purge _ _ _ _ _ _ (λ _, clock)) in H.
  apply (sys_proc _ _ _ _ _ _ 0 clock (OpCmd (CEvent "job" "e"))) in H. apply (sys_proc _ _ _ _ _ _ 0 clock OpRead) in H.
  apply (sys_proc _ _ _ _ _ _ 1 clock (OpCmd (CTiming "job" "t" 7))) in H.
  apply (y_answer _ _ 0 1 clock) in H; [|by vm_compute..].
  apply (sys_proc _ _ _ _ _ _ 0 (clock + 5) (OpCmd (CEvent "k" "e"))) in H. apply (sys_proc _ _ _ _ _ _ 1 (clock + 6) (OpCmd (CEvent "job" "e"))) in H.
  apply (sys_proc _ _ _ _ _ _ 1 (clock + 7) (OpCmd (CComplete "job" Success 40))) in H.
  apply (sys_purge _ _ _ _ _ _ (λ _, clock + minute)) in H.
  apply (sys_fail _ _ _ _ _ _ y_fail 1000 1001) in H; [|by intros [? _]].
  apply (sys_proc _ _ _ _ _ _ 0 (clock + minute) OpRead) in H. apply (sys_proc _ _ _ _ _ _ 1 (clock + minute) OpRead) in H.
  apply (sys_proc _ _ _ _ _ _ 1 (clock + minute) (OpCmd (CEvent "job" "e"))) in H. apply (sys_proc _ _ _ _ _ _ 1 (clock + minute) OpRead) in H.
  apply (y_answer _ _ 0 3 (clock + minute)) in H; [|by vm_compute..].
  apply (y_answer _ _ 1 3 (clock + minute)) in H; [|by vm_compute..].
  exact H.
Qed.
Lemma y_run : hrun (hd_init ["h:1"]) (y_ops ++ [y_recalc]) (Ok y_end).
Proof.
  assert (H : hrun (hd_init ["h:1"]) (trace y_eops ["h:1"]) (Ok y_state)) by (apply run_final; by vm_compute).
  assert (trace y_eops ["h:1"] = y_ops) as E by (by vm_compute). rewrite E in H.
  assert (hstep y_state y_recalc = Ok y_end) as Hs.
  { cbn. unfold y_end. destruct (recalc y_state (the_order y_state)) eqn:Er; [done|]. exfalso.
    assert (match recalc y_state (the_order y_state) with Ok _ => True | _ => False end) as Hx by (by vm_compute). by rewrite Er in Hx. }
  apply hrun_snoc. exists y_state. split; [done|]. split; [apply the_order_ok|done].
Qed.
(** the minute of [clock]: two events "e" of the first process, one of the
    second, its timing and its completion *)
Definition y_start : Z := slot minute clock.
Lemma y_shown : map (λ p, (pa_time p, map (λ c, ctr_val c (pa_ia p))
    [KTop (KEvents "e"); KJob "job" (KIn (KEvents "e")); KTop (KTimerSum "t"); KJob "job" KSuccess; KJob "job" KSum])) (hd_pub y_end) =
  [((y_start, 0%N), [3; 2; 7; 1; 40]); ((y_start + minute, 0%N), [0; 0; 0; 0; 0])].
Proof. by vm_compute. Qed.
Lemma hist_recalc i tr o : hist i (tr ++ [SRecalc o]) = hist i tr.
Proof. unfold hist. rewrite omap_app. cbn. by rewrite app_nil_r. Qed.
Lemma y_procs_end : procs_ok minute y_proc (y_events ++ [SRecalc (the_order y_state)]).
Proof. destruct y_procs. split; try done; intros; rewrite hist_recalc; auto. Qed.
Lemma y_kept : kept minute y_start (y_events ++ [SRecalc (the_order y_state)]).
Proof.
  intros now key Hin _. apply elem_of_app in Hin as [Hin|Hin]; [|by apply elem_of_list_singleton in Hin].
  repeat (apply elem_of_cons in Hin as [Hin|Hin]; [first [discriminate|injection Hin as ->; by vm_compute]|]). by apply elem_of_nil in Hin.
Qed.
Lemma y_heard0 : heard minute y_proc (y_events ++ [SRecalc (the_order y_state)]) 0 y_start 3.
Proof.
  exists (take 14 y_events), [SRecv 1 3; SRecalc (the_order y_state)]. split; [done|]. rewrite !hist_recalc. split.
  - apply (bool_decide_unpack _). by vm_compute.
  - intros k' Hin. repeat (apply elem_of_cons in Hin as [Hin|Hin]; [done|]). by apply elem_of_nil in Hin.
Qed.
Lemma y_heard1 : heard minute y_proc (y_events ++ [SRecalc (the_order y_state)]) 1 y_start 3.
Proof.
  exists (take 15 y_events), [SRecalc (the_order y_state)]. split; [done|]. rewrite !hist_recalc. split.
  - apply (bool_decide_unpack _). by vm_compute.
  - intros k' Hin. repeat (apply elem_of_cons in Hin as [Hin|Hin]; [done|]). by apply elem_of_nil in Hin.
Qed.
Lemma y_kept_all p : p ∈ hd_pub y_end → kept minute (ia_start (pa_ia p)) (y_events ++ [SRecalc (the_order y_state)]).
Proof.
  intros Hp. assert (ia_start (pa_ia p) ∈ map (λ p, ia_start (pa_ia p)) (hd_pub y_end)) as H by (apply elem_of_list_fmap; eauto).
  assert (map (λ p, ia_start (pa_ia p)) (hd_pub y_end) = [y_start; y_start + minute]) as E by (by vm_compute).
  rewrite E in H. clear Hp E. intros now key Hin _. apply elem_of_app in Hin as [Hin|Hin]; [|by apply elem_of_list_singleton in Hin].
  repeat (apply elem_of_cons in Hin as [Hin|Hin]; [first [discriminate|injection Hin as ->;
    apply elem_of_cons in H as [->|H]; [by vm_compute|apply elem_of_list_singleton in H as ->; by vm_compute]]|]).
  by apply elem_of_nil in Hin.
Qed.
Definition y_page (sort limit : string) : option (list (string * (Z * Z * Z))) :=
  x ← handler_overall (map pa_ia (hd_pub y_end));
  rows ← handler_jobs isort (map pa_ia (hd_pub y_end)) (map_to_list (ia_jobs x)) sort limit;
  Some (map (λ r, (aj_name r, (aj_count r, aj_success r, aj_sum r))) rows).
Lemma y_pages : y_page "name" "" = Some [("job", (1, 1, 40)); ("k", (0, 0, 0))] ∧ y_page "count" "1" = Some [("job", (1, 1, 40))].
Proof. split; by vm_compute. Qed.
