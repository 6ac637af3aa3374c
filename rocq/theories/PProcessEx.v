(** * An execution of two goroutines and five sinks, by computation *)
From Verif Require Import PProcess3 MNum.

(** ** A function that follows a script; what the script leaves open is filled in *)
Definition pexec (s : pst) (a : pact) : option (pact * pst) :=
  match a, s with
  | PEmit c, PSt q l ag wr wd wb =>
      match l with PCrashed => None | _ => if Z.of_nat (length q) <? poll_buff then Some (PEmit c, PSt (q ++ [c]) l ag wr wd wb) else None end
  | PReadCall i, PSt q PRun ag [] [] [] => Some (PReadCall i, PSt q PRun ag [i] [] [])
  | PReadTake i t, PSt q PRun ag [j] [] [] =>
      if Nat.eqb i j then match agg_step ag t OpRead with Ok (ag', Some out) => Some (PReadTake i t, PSt q (PReply i out) ag' [] [] []) | _ => None end else None
  | PReadRet i _, PSt q (PReply j out) ag wr wd wb => if Nat.eqb i j then Some (PReadRet i out, PSt q PRun ag wr wd wb) else None
  | PTake t _, PSt (c :: q) PRun ag wr wd wb => match agg_step ag t (OpCmd c) with Ok (ag', _) => Some (PTake t c, PSt q PRun ag' wr wd wb) | _ => None end
  | PTick t, PSt q PRun ag wr wd wb => match agg_step ag t OpTick with Ok (ag', _) => Some (PTick t, PSt q PRun ag' wr wd wb) | _ => None end
  | _, _ => None
  end.
Lemma pexec_ok s a b s' : pexec s a = Some (b, s') → pstep s b s' ∧ match a with PEmit c => b = PEmit c | _ => not_emit_p b end.
Proof.
  destruct a as [c|i|i t|i out|i|i|i|t c|t], s as [q l ag wr wd wb]; cbn [pexec]; intros H; try done.
  - destruct l; try done; case_match eqn:E; simplify_eq; (split; [|done]); apply (Ps_emit (PSt _ _ _ _ _ _)); try done; apply Z.ltb_lt in E; exact E.
  - destruct l, wr, wd, wb; simplify_eq. split; [|done]. apply (Ps_read_call (PSt _ _ _ _ _ _)); [done|]. repeat split; try done; set_solver.
  - destruct l, wr as [|j []], wd, wb; try done. destruct (Nat.eqb_spec i j) as [->|]; [|done]. destruct (agg_step ag t OpRead) as [[ag' [out|]]|] eqn:E; simplify_eq.
    split; [|done]. pose proof (Ps_read_take q ag ag' out [j] [] [] j t ltac:(left) E) as P. unfold p_out in P. cbn in P. destruct (Nat.eq_dec j j); [exact P|done].
  - destruct l as [|j out'| | |]; try done. destruct (Nat.eqb_spec i j) as [->|]; [|done]. simplify_eq. split; [|done]. constructor.
  - destruct q, l; try done. destruct (agg_step ag t (OpCmd c0)) as [[ag' r]|] eqn:E; simplify_eq. split; [|done]. by econstructor.
  - destruct l; try done. destruct (agg_step ag t OpTick) as [[ag' r]|] eqn:E; simplify_eq. split; [|done]. by econstructor.
Qed.
Definition lexec (o : opts) (s : lst) (a : sact) : option lst :=
  match a, s with
  | AEmit c, LSt q l d wd ws => if Z.of_nat (length q) <? cmdChanBuffSize then Some (LSt (q ++ [SMetric c]) l d wd ws) else None
  | ADrainCall i, LSt q l d [] [] => if Z.of_nat (length q) <? cmdChanBuffSize then Some (LSt (q ++ [SDrain]) l d [i] []) else None
  | ATake, LSt (SDrain :: q) LRun d wd ws => Some (LSt q LDrain d wd ws)
  | ATake, LSt (SMetric c :: q) LRun d wd ws => match process_cmd o d (SMetric c) with Ok d' => Some (LSt q LRun d' wd ws) | _ => None end
  | ADrainEmpty, LSt [] LDrain d wd ws => Some (LSt [] LDrainSend (sd_flush d) wd ws)
  | ADrainDone i, LSt q LDrainSend d [j] [] => if Nat.eqb i j then Some (LSt q LRun d [] []) else None
  | _, _ => None
  end.
Lemma lexec_ok o s a s' : lexec o s a = Some s' → lstep o s a s'.
Proof.
  destruct a as [c| |i|i| | | |i|i], s as [q l d wd ws]; cbn [lexec]; intros H; try done.
  - case_match eqn:E; simplify_eq. apply (St_emit _ (LSt _ _ _ _ _)). by apply Z.ltb_lt.
  - destruct wd, ws; try done. case_match eqn:E; simplify_eq. apply (St_drain_call _ (LSt _ _ _ _ _)); [by apply Z.ltb_lt|set_solver..].
  - destruct q as [|[c| | |] q], l; simplify_eq; try done; [|constructor]. destruct (process_cmd o d (SMetric c)) eqn:E; simplify_eq. by constructor.
  - destruct q, l; simplify_eq. constructor.
  - destruct l, wd as [|j []], ws; try done. destruct (Nat.eqb_spec i j) as [->|]; simplify_eq.
    pose proof (St_drain_done o q d [j] [] j ltac:(left)) as P. unfold remove_one in P. cbn in P. destruct (Nat.eq_dec j j); [exact P|done].
Qed.
Definition gexec (c : lconf) (s : lgo) (a : lact) : option lgo :=
  match a, s with
  | GEmit job e, LGo q ph l w => if Z.of_nat (length q) <? lib_buff then Some (LGo (q ++ [(job, e)]) ph l w) else None
  | GTake, LGo ((job, e) :: q) LbRun l w => Some (LGo q LbRun (lib_process c l job e) w)
  | GTick now ok, LGo q LbRun l w => Some (LGo q LbRun (lib_purge c l now ok) w)
  | _, _ => None
  end.
Lemma gexec_ok c s a s' : gexec c s a = Some s' → gostep c s a s'.
Proof.
  destruct a as [job e| |now ok|i|i], s as [q ph l w]; cbn [gexec]; intros H; try done.
  - case_match eqn:E; simplify_eq. constructor. by apply Z.ltb_lt.
  - destruct q as [|[job e] q], ph; simplify_eq. constructor.
  - destruct ph; simplify_eq. constructor.
Qed.
Definition bexec (s : bq) (a : bact) : option bq :=
  match a, s with
  | BEnqueue c, BQ q sent d => if Nat.ltb (length q) bugsnag_chan_size then Some (BQ (q ++ [c]) sent d) else None
  | BNotify, BQ (c :: q) sent false => Some (BQ q (sent ++ [c]) false)
  | _, _ => None
  end.
Lemma bexec_ok s a s' : bexec s a = Some s' → bstep s a s'.
Proof.
  destruct a as [c| |], s as [q sent d]; cbn [bexec]; intros H; try done.
  - case_match eqn:E; simplify_eq. apply (B_enq (BQ _ _ _)). by apply Nat.ltb_lt.
  - destruct q, d; simplify_eq. constructor.
Qed.
Definition texec (x : ksink) (c : cmd) (e : option fresh_err) : option ksink :=
  match x with
  | KPoll s => match pexec s (PEmit c) with Some (_, s') => Some (KPoll s') | None => None end
  | KStatsd o s => match lexec o s (AEmit c) with Some s' => Some (KStatsd o s') | None => None end
  | KLibrato lc s => match gexec lc s (GEmit (lib_cmd c).1 (lib_cmd c).2) with Some s' => Some (KLibrato lc s') | None => None end
  | KBugsnag s =>
      match bug_cmd c e with
      | Some b => match bexec s (BEnqueue b) with Some s' => Some (KBugsnag s') | None => None end
      | None => Some (KBugsnag s)
      end
  | KOther l => Some (KOther (l ++ [c]))
  end.
Lemma texec_ok x c e x' : texec x c e = Some x' → takes_cmd x c e x'.
Proof.
  destruct x as [s|o s|lc s|s|l]; cbn [texec]; intros H.
  - destruct (pexec s (PEmit c)) as [[b s']|] eqn:E; simplify_eq. apply pexec_ok in E as [E ->]. by constructor.
  - destruct (lexec o s (AEmit c)) eqn:E; simplify_eq. constructor. by apply lexec_ok.
  - destruct (gexec lc s _) eqn:E; simplify_eq. constructor. by apply gexec_ok.
  - destruct (bug_cmd c e) eqn:Eb; [|simplify_eq; by constructor]. destruct (bexec s _) eqn:E; simplify_eq. econstructor; [done|]. by apply bexec_ok.
  - simplify_eq. constructor.
Qed.
Definition alive_b (x : ksink) : bool := match x with KPoll (PSt _ PCrashed _ _ _ _) => false | _ => true end.
Definition qexec (s : proc) (a : qact) : option (qact * proc) :=
  let '(Proc cs ks) := s in
  if forallb alive_b ks then
    match a with
    | QEmit g k _ _ =>
        match cs !! g with
        | Some (Caller at_ (c :: rest)) =>
            if Nat.eqb at_ k then
              x ← ks !! at_; x' ← texec x (c at_) (sc_new c at_); Some (QEmit g at_ (c at_) (sc_new c at_), Proc (<[g := Caller (S at_) (c :: rest)]> cs) (<[at_ := x']> ks))
            else None
        | _ => None
        end
    | QNext g =>
        match cs !! g with
        | Some (Caller at_ (c :: rest)) => if Nat.eqb at_ (length ks) then Some (QNext g, Proc (<[g := Caller 0 rest]> cs) ks) else None
        | _ => None
        end
    | QPoll k (PEmit _) => None
    | QPoll k a => match ks !! k with Some (KPoll p) => '(b, p') ← pexec p a; Some (QPoll k b, Proc cs (<[k := KPoll p']> ks)) | _ => None end
    | QStatsd k (AEmit _) => None
    | QStatsd k a => match ks !! k with Some (KStatsd o l) => l' ← lexec o l a; Some (QStatsd k a, Proc cs (<[k := KStatsd o l']> ks)) | _ => None end
    | QLibrato k (GEmit _ _) => None
    | QLibrato k a => match ks !! k with Some (KLibrato c l) => l' ← gexec c l a; Some (QLibrato k a, Proc cs (<[k := KLibrato c l']> ks)) | _ => None end
    | QBugsnag k (BEnqueue _) => None
    | QBugsnag k a => match ks !! k with Some (KBugsnag l) => l' ← bexec l a; Some (QBugsnag k a, Proc cs (<[k := KBugsnag l']> ks)) | _ => None end
    end
  else None.
Lemma alive_ok cs ks : forallb alive_b ks = true → q_alive (Proc cs ks).
Proof.
  intros H. apply Forall_forall. intros x Hx%elem_of_list_In. eapply forallb_forall in H; [|exact Hx]. destruct x as [[q [] ag wr wd wb]| | | |]; done.
Qed.
Lemma qexec_ok s a b s' : qexec s a = Some (b, s') → qstep s b s'.
Proof.
  destruct s as [cs ks]. unfold qexec. destruct (forallb alive_b ks) eqn:Ha; [|done]. apply (alive_ok cs) in Ha. intros H. destruct a as [g k c e|g|k a|k a|k a|k a].
  - destruct (cs !! g) as [[at_ [|c' rest]]|] eqn:Hg; try done. destruct (Nat.eqb_spec at_ k) as [->|]; [|done].
    destruct (ks !! k) as [x|] eqn:Hk; [|done]. cbn in H. destruct (texec x (c' k) (sc_new c' k)) as [x'|] eqn:Ht; [|done]. cbn in H. simplify_eq.
    econstructor; eauto using texec_ok.
  - destruct (cs !! g) as [[at_ [|c' rest]]|] eqn:Hg; try done. destruct (Nat.eqb_spec at_ (length ks)) as [->|]; [|done]. simplify_eq. by econstructor.
  - assert (Ha' : (∃ c, a = PEmit c) ∨ match ks !! k with Some (KPoll p) => '(b, p') ← pexec p a; Some (QPoll k b, Proc cs (<[k := KPoll p']> ks)) | _ => None end = Some (b, s') ∧ ∀ c, a ≠ PEmit c)
      by (destruct a; eauto; right; split; done).
    destruct Ha' as [[c ->]|[E Hne]]; [done|]. clear H. destruct (ks !! k) as [[p| | | |]|] eqn:Hk; try done.
    destruct (pexec p a) as [[b' p']|] eqn:Ep; [|done]. cbn in E. simplify_eq. apply pexec_ok in Ep as [P1 P2].
    eapply Qs_poll; [done|done| |done]. destruct a; try done. by destruct (Hne c).
  - assert (Ha' : (∃ c, a = AEmit c) ∨ match ks !! k with Some (KStatsd o l) => l' ← lexec o l a; Some (QStatsd k a, Proc cs (<[k := KStatsd o l']> ks)) | _ => None end = Some (b, s') ∧ not_emit_s a)
      by (destruct a; eauto; right; split; done).
    destruct Ha' as [[c ->]|[E Hne]]; [done|]. clear H. destruct (ks !! k) as [[|o l| | |]|] eqn:Hk; try done.
    destruct (lexec o l a) as [l'|] eqn:El; [|done]. cbn in E. simplify_eq. eapply Qs_statsd; [done|done|done|by apply lexec_ok].
  - assert (Ha' : (∃ j e, a = GEmit j e) ∨ match ks !! k with Some (KLibrato c l) => l' ← gexec c l a; Some (QLibrato k a, Proc cs (<[k := KLibrato c l']> ks)) | _ => None end = Some (b, s') ∧ not_emit_l a)
      by (destruct a; eauto; right; split; done).
    destruct Ha' as [(j & e & ->)|[E Hne]]; [done|]. clear H. destruct (ks !! k) as [[| |c l| |]|] eqn:Hk; try done.
    destruct (gexec c l a) as [l'|] eqn:El; [|done]. cbn in E. simplify_eq. eapply Qs_librato; [done|done|done|by apply gexec_ok].
  - assert (Ha' : (∃ c, a = BEnqueue c) ∨ match ks !! k with Some (KBugsnag l) => l' ← bexec l a; Some (QBugsnag k a, Proc cs (<[k := KBugsnag l']> ks)) | _ => None end = Some (b, s') ∧ not_emit_b a)
      by (destruct a; eauto; right; split; done).
    destruct Ha' as [[c ->]|[E Hne]]; [done|]. clear H. destruct (ks !! k) as [[| | |l|]|] eqn:Hk; try done.
    destruct (bexec l a) as [l'|] eqn:El; [|done]. cbn in E. simplify_eq. eapply Qs_bugsnag; [done|done|done|by apply bexec_ok].
Qed.
Fixpoint qexecs (s : proc) (tr : list qact) : option (list qact * proc) :=
  match tr with
  | [] => Some ([], s)
  | a :: tr => '(b, s') ← qexec s a; '(t, s'') ← qexecs s' tr; Some (b :: t, s'')
  end.
Lemma qexecs_ok tr : ∀ s t s', qexecs s tr = Some (t, s') → qsteps s t s'.
Proof.
  induction tr as [|a tr IH]; intros s t s' H; cbn in H; [simplify_eq; constructor|].
  destruct (qexec s a) as [[b m]|] eqn:E1; [|done]. cbn in H. destruct (qexecs m tr) as [[t' s'']|] eqn:E2; [|done]. cbn in H. simplify_eq.
  econstructor; [by eapply qexec_ok|by eapply IH].
Qed.

(** ** The execution *)
Definition pr_o : opts := Opts "pre" sanitize_key false false go_short.
Definition login : scall := SCall (λ _, CEvent "web" "login") (λ _, None).
(** EmitComplete reads the clock once per sink *)
Definition finish : scall := SCall (λ k, CComplete "web" Success (1000000 + Z.of_nat k)) (λ _, None).
(** an error not reported before: the object at address 9 *)
Definition fail : scall := SCall (λ _, CEventErr "web" "bad" (Some (Err "oops" [1%N]))) (λ k, if Nat.eqb k 4 then Some (9%nat, None) else None).
Definition pr_lc : lconf := LConf "pre" sanitize_key 15000000000 "host".
Definition pr_progs : list (list scall) := [[login; finish]; [login; fail]].
Definition pr_sinks : list ksink := [KPoll (pst0 60 300); KStatsd pr_o lst0; KOther []; KLibrato pr_lc lgo0; KBugsnag bq0].
Definition tell (g k : nat) (c : scall) : qact := QEmit g k (c k) (sc_new c k).
Definition pr_tr1 : list qact :=
  [tell 0 0 login; tell 1 0 login; tell 1 1 login; QPoll 0 (PTake 65 (login 0%nat)); tell 0 1 login;
   tell 1 2 login; tell 1 3 login; QLibrato 3 GTake; tell 1 4 login; QNext 1;
   tell 0 2 login; tell 0 3 login; tell 0 4 login; QNext 0; QPoll 0 (PTake 130 (login 0%nat));
   tell 0 0 finish; tell 0 1 finish; tell 1 0 fail; tell 0 2 finish; QStatsd 1 ATake; tell 1 1 fail; tell 0 3 finish; tell 0 4 finish; QNext 0;
   QPoll 0 (PTake 131 (finish 0%nat)); tell 1 2 fail; tell 1 3 fail; tell 1 4 fail; QPoll 0 (PTake 132 (fail 0%nat)); QNext 1;
   QLibrato 3 (GTick 1 true); QBugsnag 4 BNotify; QLibrato 3 GTake; QLibrato 3 GTake; QLibrato 3 GTake; QLibrato 3 (GTick 2 true)].
Definition pr_read : list qact := [QPoll 0 (PTick 140); QPoll 0 (PReadTake 7 150)].
Definition pr_drain : list qact := [QStatsd 1 ATake; QStatsd 1 ATake; QStatsd 1 ATake; QStatsd 1 ATake; QStatsd 1 ADrainEmpty].
Definition pr_drain_all : list qact := QStatsd 1 (ADrainCall 8) :: pr_drain ++ [QStatsd 1 (ADrainDone 8)].
Definition run_tr (s : proc) (tr : list qact) : list qact := match qexecs s tr with Some (t, _) => t | None => [] end.
Definition run_st (s : proc) (tr : list qact) : proc := match qexecs s tr with Some (_, s') => s' | None => s end.
Lemma run_ok s tr : (if qexecs s tr then true else false) = true → qsteps s (run_tr s tr) (run_st s tr).
Proof. unfold run_tr, run_st. destruct (qexecs s tr) as [[t s']|] eqn:E; [|done]. intros _. by eapply qexecs_ok. Qed.
Definition poll_at (s : proc) (k : nat) : option pst := match q_sinks s !! k with Some (KPoll p) => Some p | _ => None end.
Definition statsd_at (s : proc) (k : nat) : option lst := match q_sinks s !! k with Some (KStatsd _ l) => Some l | _ => None end.

Definition pr_s1 : proc := run_st (proc0 pr_progs pr_sinks) pr_tr1.
Definition pr_out : list ia :=
  match poll_at (run_st pr_s1 (QPoll 0 (PReadCall 7) :: pr_read)) 0 with Some (PSt _ (PReply _ out) _ _ _ _) => out | _ => [] end.
Definition pr_end : proc := run_st pr_s1 pr_drain_all.
(** the script without the answer *)
Definition pr_read_all : list qact := QPoll 0 (PReadCall 7) :: pr_read ++ [QPoll 0 (PReadRet 7 [])].

Lemma process_run :
  qsteps (proc0 pr_progs pr_sinks) pr_tr1 pr_s1 ∧ all_returned pr_progs pr_tr1 ∧
  (p_q <$> poll_at pr_s1 0) = Some [] ∧ (l_wd <$> statsd_at pr_s1 1) = Some [] ∧
  q_sinks pr_s1 !! 2%nat = Some (KOther [login 2%nat; login 2%nat; finish 2%nat; fail 2%nat]) ∧
  (∃ s, qsteps pr_s1 (QPoll 0 (PReadCall 7) :: pr_read ++ [QPoll 0 (PReadRet 7 pr_out)]) s) ∧
  qsteps pr_s1 pr_drain_all pr_end ∧
  ((λ l, counter "pre.web.login" (sd_sent (l_sd l))) <$> statsd_at pr_end 1) = Some 2 ∧
  map ia_start pr_out = [60; 120] ∧ event_total "login" pr_out = 2.
Proof.
  split. { assert (run_tr (proc0 pr_progs pr_sinks) pr_tr1 = pr_tr1) as E by (vm_compute; reflexivity). rewrite <- E at 1. apply run_ok. vm_compute. reflexivity. }
  split; [intros [|[|]] prog Hg; cbn in Hg; simplify_eq; done|].
  split; [vm_compute; reflexivity|].
  split; [vm_compute; reflexivity|].
  split; [vm_compute; reflexivity|].
  split.
  { exists (run_st pr_s1 pr_read_all). assert (run_tr pr_s1 pr_read_all = QPoll 0 (PReadCall 7) :: pr_read ++ [QPoll 0 (PReadRet 7 pr_out)]) as <- by (vm_compute; reflexivity).
    apply run_ok. vm_compute. reflexivity. }
  split. { assert (run_tr pr_s1 pr_drain_all = pr_drain_all) as E by (vm_compute; reflexivity). rewrite <- E at 1. apply run_ok. vm_compute. reflexivity. }
  split; [vm_compute; reflexivity|].
  split; vm_compute; reflexivity.
Qed.
