(** * Concrete executions with log sinks *)
From Verif Require Import SLog PHealth PHealth2 PHealth3 PHealth4 PApi PLog PLog2 PLog3.

(** sinks 1 and 3 write lines, 2 writes objects, all others none *)
Definition x_env : logenv := LogEnv
  (λ k, match k with 1 | 3 => SkWriter | 2 => SkJson | _ => SkQuiet end%nat)
  (@isort string) (λ _, "1.5") (λ _, "1.5") (λ n, "T") (λ _ m, map fst (map_to_list m)) "%!v(PANIC=Error method)".
Lemma x_env_ok : env_ok x_env.
Proof. split; [apply isort_correct|done]. Qed.

(** a stream with the sinks 4, 2, 1, 5, 3 *)
Definition x_setup : list api :=
  [ApiNewStream; ApiAddSink 0 4; ApiAddSink 0 2; ApiAddSink 0 1; ApiAddSink 0 5; ApiAddSink 0 3; ApiStreamKv 0 "env" "prod"; ApiNewJob 0 "work"].
Fixpoint l_do (env : logenv) (s : lstate) (l : list api) : res (lstate * list bool) :=
  match l with
  | [] => Ok (s, [])
  | a :: l => r ←r l_step env s a; r' ←r l_do env r.1 l; Ok (r'.1, r.2 :: r'.2)
  end.
Definition x_start : lstate := LS (world0 (λ n, 100 * Z.of_nat n)) [].
Definition x_s : lstate := match l_do x_env x_start x_setup with Ok r => r.1 | Crash _ => x_start end.
Definition x_job : nat := 3.
Lemma l_do_run env l : Forall (λ a, handed a = None ∨ ∃ e, handed a = Some e ∧ ∀ w, holds w e) l → ∀ s s' bs, l_do env s l = Ok (s', bs) → l_run env s (zip l bs) s'.
Proof.
  induction 1 as [|a l Ha _ IH]; intros s s' bs H; cbn in H.
  { injection H as <- <-. constructor. }
  destruct (l_step env s a) as [[s1 b]|] eqn:E1; [|done]. cbn in H. destruct (l_do env s1 l) as [[s2 bs2]|] eqn:E2; [|done]. cbn in H. injection H as <- <-.
  cbn. econstructor; [|done|by apply IH]. destruct a; cbn in *; try done; destruct Ha as [?|(e' & E & H)]; try done; injection E as ->; apply H.
Qed.
Lemma x_reach : l_reach x_env x_s.
Proof.
  exists (λ n, 100 * Z.of_nat n), (zip x_setup [false; false; false; false; false; false; false; false]).
  apply l_do_run; [repeat constructor|]. vm_compute. reflexivity.
Qed.
Definition x_jb : job := default (Job 0 "" None 0) (w_jobs (ls_w x_s) !! x_job).
Definition x_st : stream := default (Stream [] None) (w_streams (ls_w x_s) !! 0%nat).

(** what the calls write, and which panic *)
Definition x_writes (l : list api) : option (list (nat * string) * list bool) :=
  match l_do x_env x_s l with Ok (s, bs) => Some (ls_out s, bs) | Crash _ => None end.

Lemma x_nil : ∃ s', l_step x_env x_s (ApiEventErr x_job "e" ENil []) = Ok (s', true) ∧
  map c_sink (w_log (ls_w s')) = [4; 2]%nat.
Proof. eexists. split; [vm_compute; reflexivity|]. vm_compute. reflexivity. Qed.
Lemma cx_nil : ∃ env s a s', env_ok env ∧ l_reach env s ∧ api_can (ls_w s) a ∧ l_step env s a = Ok (s', true).
Proof.
  destruct x_nil as (s' & H & _). exists x_env, x_s, (ApiEventErr x_job "e" ENil []), s'.
  split; [apply x_env_ok|]. split; [apply x_reach|]. split; [exact I|exact H].
Qed.
Lemma cx_untold : ∃ env s a j inst jb st s' k, env_ok env ∧ l_reach env s ∧ api_can (ls_w s) a ∧
  SHealth.emission a = Some (j, inst) ∧ w_jobs (ls_w s) !! j = Some jb ∧ w_streams (ls_w s) !! jb_stream jb = Some st ∧
  k ∈ st_sinks st ∧ le_kind env k = SkQuiet ∧ l_step env s a = Ok (s', true) ∧ w_log (ls_w s) = [] ∧ Forall (λ c, c_sink c ≠ k) (w_log (ls_w s')).
Proof.
  destruct x_nil as (s' & H & H2). exists x_env, x_s, (ApiEventErr x_job "e" ENil []), x_job, None, x_jb, x_st, s', 5%nat.
  split; [apply x_env_ok|]. split; [apply x_reach|]. split; [done|]. split; [done|]. split; [vm_compute; reflexivity|]. split; [vm_compute; reflexivity|].
  split; [apply elem_of_list_lookup; exists 3%nat; vm_compute; reflexivity|]. split; [done|]. split; [exact H|]. split; [vm_compute; reflexivity|].
  apply Forall_forall. intros c Hc E. assert (5%nat ∈ [4; 2]%nat) as Hin by (rewrite <-H2, <-E; by apply elem_of_list_fmap_1).
  apply elem_of_cons in Hin as [?|Hin]; [done|]. apply elem_of_cons in Hin as [?|Hin]; [done|]. by apply not_elem_of_nil in Hin.
Qed.
(** a function that reports nil *)
Definition x_f (s : lstate) : lstate * outcome :=
  match l_step x_env s (ApiEventErr x_job "n" ENil []) with
  | Ok (s', true) => (s', OPanic "runtime error")
  | Ok (s', false) => (s', ORet ENil)
  | Crash _ => (s, OPanicNil)
  end.
