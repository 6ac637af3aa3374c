(** * A process restarted with the pid it had: a concrete execution *)
From Verif Require Import PApi SIdent PContent PContent2 PAgg PAgg2 PHealthd PNum2 PWire PWire2 PWireEx PHealthEx PHealthdEx PSystem PSystemEx PIdent.

(** a program that always has pid 1, as in a container, on host "web" *)
Definition rb_who (i : nat) : option string * Z := (Some "web", 1).
Definition rb_proc (i : nat) : proc := Proc "h:1" (get_identifier (Some "web") 1) (60 * minute) (λ _, 0).
(** it counts "x"; healthd takes an answer; it is restarted, counts "y" in the
    same minute; healthd takes an answer *)
Definition rb_events : list sev :=
  [SProc 0 clock (OpCmd (CEvent "job" "x")); SProc 0 clock OpRead; SRecv 0 1;
   SProc 1 (clock + 5) (OpCmd (CEvent "job" "y")); SProc 1 (clock + 6) OpRead; SRecv 1 1].
Definition rb_out (i k : nat) : list ia :=
  match hist i rb_events !! k with
  | Some (t, _) => match get_metrics minute (60 * minute) (take k (hist i rb_events)) t with Ok out => out | Crash _ => [] end
  | None => [] end.
Definition rb_serve (i k : nat) : Z * string := serve_health go_float (λ _, 0) "" "/health" (p_inst (rb_proc i)) minute (rb_out i k).
Definition rb_poll (i k : nat) : res (world * resp) :=
  poll ex_world 0 "h:1" 7 (fetch_of (λ _ _, 0%N) (rb_serve i k).1 5 ENil (Reply "" 0 []) (rb_serve i k).2) [].
Definition rb_resp (i k : nat) : resp := match rb_poll i k with Ok x => x.2 | Crash _ => y_fail end.
Definition rb_eops : list eop := [EResp (rb_resp 0 1); EResp (rb_resp 1 1)].
Definition rb_ops : list hop := [HResp (rb_resp 0 1) 1000 1001; HResp (rb_resp 1 1) 1000 1001].
Definition rb_state : MHealthd.hd := final rb_eops ["h:1"].
Definition rb_end : MHealthd.hd := match recalc rb_state (the_order rb_state) with Ok s => s | Crash _ => hd_init [] end.
Definition rb_recalc : hop := HRecalc (the_order rb_state).

Lemma rb_answer tr ops i k t : sys go_float minute rb_proc 0 tr ops → hist i tr !! k = Some (t, OpRead) →
  take k (hist i tr) = take k (hist i rb_events) → hist i rb_events !! k = Some (t, OpRead) →
  match get_metrics minute (60 * minute) (take k (hist i rb_events)) t with Ok _ => True | _ => False end →
  match rb_poll i k with Ok _ => True | _ => False end →
  sys go_float minute rb_proc 0 (tr ++ [SRecv i k]) (ops ++ [HResp (rb_resp i k) 1000 1001]).
Proof.
  intros HS Hk Htk Hk' Hg Hp. unfold rb_resp. destruct (rb_poll i k) as [[w' r]|] eqn:Ep; [|done].
  destruct (rb_serve i k) as [code body] eqn:Es.
  eapply (sys_recv _ _ _ _ _ _ i k t (rb_out i k) "" code body (λ _ _, 0%N) 5 ENil (Reply "" 0 []) ex_world 0%nat 7 [] w'); try done.
  - rewrite Htk. unfold rb_out. rewrite Hk'. cbn [p_retain rb_proc]. by destruct get_metrics.
  - unfold rb_poll in Ep. rewrite Es in Ep. exact Ep.
Qed.
Lemma rb_sys : sys go_float minute rb_proc 0 (rb_events ++ [SRecalc (the_order rb_state)]) (rb_ops ++ [rb_recalc]).
Proof.
  apply sys_recalc. unfold rb_events, rb_ops.
  assert (H := sys_nil go_float minute rb_proc 0).
  apply (sys_proc _ _ _ _ _ _ 0 clock (OpCmd (CEvent "job" "x"))) in H. apply (sys_proc _ _ _ _ _ _ 0 clock OpRead) in H.
  apply (rb_answer _ _ 0 1 clock) in H; [|by vm_compute..].
  apply (sys_proc _ _ _ _ _ _ 1 (clock + 5) (OpCmd (CEvent "job" "y"))) in H. apply (sys_proc _ _ _ _ _ _ 1 (clock + 6) OpRead) in H.
  apply (rb_answer _ _ 1 1 (clock + 6)) in H; [|by vm_compute..].
  exact H.
Qed.
Lemma rb_run : hrun (hd_init ["h:1"]) (rb_ops ++ [rb_recalc]) (Ok rb_end).
Proof.
  assert (H : hrun (hd_init ["h:1"]) (trace rb_eops ["h:1"]) (Ok rb_state)) by (apply run_final; by vm_compute).
  assert (trace rb_eops ["h:1"] = rb_ops) as E by (by vm_compute). rewrite E in H.
  assert (hstep rb_state rb_recalc = Ok rb_end) as Hs.
  { cbn. unfold rb_end. destruct (recalc rb_state (the_order rb_state)) eqn:Er; [done|]. exfalso.
    assert (match recalc rb_state (the_order rb_state) with Ok _ => True | _ => False end) as Hx by (by vm_compute). by rewrite Er in Hx. }
  apply hrun_snoc. exists rb_state. split; [done|]. split; [apply the_order_ok|done].
Qed.
Lemma rb_shown : map (λ p, (pa_time p, map (λ c, ctr_val c (pa_ia p)) [KTop (KEvents "x"); KTop (KEvents "y")])) (hd_pub rb_end) =
  [((y_start, 0%N), [1; 0])].
Proof. by vm_compute. Qed.
Lemma rb_heard : heard minute rb_proc (rb_events ++ [SRecalc (the_order rb_state)]) 1 y_start 1.
Proof.
  exists (take 5 rb_events), [SRecalc (the_order rb_state)]. split; [done|]. rewrite !hist_recalc. split.
  - apply (bool_decide_unpack _). by vm_compute.
  - intros k' Hin. repeat (apply elem_of_cons in Hin as [Hin|Hin]; [done|]). by apply elem_of_nil in Hin.
Qed.
Lemma rb_zero p : p ∈ hd_pub rb_end → ctr_val (KTop (KEvents "y")) (pa_ia p) = 0.
Proof.
  intros Hp. assert (E := rb_shown).
  assert ((pa_time p, map (λ c, ctr_val c (pa_ia p)) [KTop (KEvents "x"); KTop (KEvents "y")]) ∈ [((y_start, 0%N), [1; 0])]) as H.
  { rewrite <-E. apply (elem_of_list_fmap_1 (λ p, (pa_time p, map (λ c, ctr_val c (pa_ia p)) [KTop (KEvents "x"); KTop (KEvents "y")]))), Hp. }
  apply elem_of_list_singleton in H. cbn [map] in H. congruence.
Qed.
Lemma thm_restart : ∃ who P d tr ops a s,
  identified who P ∧ pids_ok who ∧ who 0%nat = who 1%nat ∧ (∀ i, (who i).1 ≠ None) ∧
  sys go_float d P 0 tr ops ∧ hrun (hd_init ["h:1"]) ops (Ok a) ∧
  heard d P tr 1 s 1 ∧ CEvent "job" "y" ∈ cmds_in d s (take 1 (hist 1 tr)) ∧
  hd_pub a ≠ [] ∧ ∀ p, p ∈ hd_pub a → ctr_val (KTop (KEvents "y")) (pa_ia p) = 0.
Proof.
  exists rb_who, rb_proc, minute, (rb_events ++ [SRecalc (the_order rb_state)]), (rb_ops ++ [rb_recalc]), rb_end, y_start.
  split; [by intros i|]. split; [intros i; cbn; lia|]. split; [done|]. split; [done|]. split; [exact rb_sys|]. split; [exact rb_run|].
  split; [exact rb_heard|]. split; [rewrite hist_recalc; assert (cmds_in minute y_start (take 1 (hist 1 rb_events)) = [CEvent "job" "y"]) as -> by (by vm_compute); by left|].
  split; [|exact rb_zero]. intros E. pose proof rb_shown as H. rewrite E in H. discriminate.
Qed.
