(** * Proofs: data races, notifications *)
From Verif Require Import SRace.

(** the call a goroutine is making *)
Definition current (p : ph) : list call :=
  match p with
  | Idle => []
  | KvField o | KvMake o | KvPut o => [CKeyValue o]
  | InstPut c => [CInst c]
  | AddRead s k | AddWrite s k _ => [CAddSink s k]
  | EmJob x | EmJobLen x | EmStr x _ | EmStrLen x _ | EmInst x _ _ | EmCopy x _ | EmSinks x _ | EmAt x _ _ | EmSend x _ _ _ | EmMark x => [CEmit x]
  end.
Definition writes (c : call) : list mref := match c with CKeyValue o => [MOf o] | CInst c => [MInst c] | _ => [] end.

Lemma rrun_snoc sof l : ∀ s a, rrun sof s (l ++ [a]) = '(s, x) ← rrun sof s l; '(s, y) ← rstep sof s a; Some (s, x ++ y).
Proof.
  induction l as [|b l IH]; intros s a; cbn.
  - destruct (rstep sof s a) as [[? ?]|]; [|done]. cbn. by rewrite app_nil_r.
  - destruct (rstep sof s b) as [[s1 x1]|]; [|done]. cbn. rewrite IH. destruct (rrun sof s1 l) as [[s2 x2]|]; [|done]. cbn.
    destruct (rstep sof s2 a) as [[s3 x3]|]; [|done]. cbn. by rewrite app_assoc.
Qed.
Lemma executes_ind sof w progs (I : rstate → list rlab → Prop) :
  I (starts_with w progs) [] → (∀ s tr a s' x, I s tr → rstep sof s a = Some (s', x) → I s' (tr ++ x)) →
  ∀ s tr, executes sof w progs s tr → I s tr.
Proof.
  intros H0 HS s tr [l E]. revert s tr E. induction l as [|a l IH] using rev_ind; intros s tr E.
  - cbn in E. by injection E as <- <-.
  - rewrite rrun_snoc in E. destruct (rrun sof (starts_with w progs) l) as [[s1 x1]|] eqn:E1; [|done]. cbn in E.
    destruct (rstep sof s1 a) as [[s2 x2]|] eqn:E2; [|done]. cbn in E. injection E as <- <-. eauto.
Qed.
Lemma starts_at w progs g p cs : r_gs (starts_with w progs) !! g = Some (p, cs) → p = Idle ∧ progs !! g = Some cs.
Proof. cbn. rewrite list_lookup_fmap. destruct (progs !! g); cbn; [|done]. by intros [= <- <-]. Qed.

Section use.
  Context (sof : nat → nat) (same : nat → nat → bool) (w : shared) (progs : list (list call)).
  Context (HU : used_well sof same w progs) (HQ : fresh_queues w).

  Definition rich (x : em) : Prop :=
    sh_made w (OStream (sof (em_job x))) = true ∧ sh_full w (MOf (OStream (sof (em_job x)))) = true.
  Definition of_em (x : em) (m : mref) : Prop :=
    m = MOf (OStream (sof (em_job x))) ∨ m = MOf (OJob (em_job x)) ∨ ∃ c, em_inst x = Some c ∧ m = MInst c.
  Definition good_m (x : em) (m : option mref) : Prop :=
    match m with
    | None => True
    | Some m => m = MNew ∨ m = MOf (OStream (sof (em_job x))) ∨
        ¬ rich x ∧ (m = MOf (OJob (em_job x)) ∨ ∃ c, em_inst x = Some c ∧ m = MInst c)
    end.
  Definition ph_ok (p : ph) : Prop :=
    match p with
    | EmStrLen x _ => True
    | EmInst x _ sn => rich x → sn = true
    | EmCopy x ms => Forall (of_em x) ms
    | EmSinks x m | EmAt x m _ | EmSend x m _ _ => good_m x m
    | _ => True
    end.
  Record inv (s : rstate) : Prop := {
    i_calls : ∀ g p cs, r_gs s !! g = Some (p, cs) → ph_ok p ∧ ∃ pre, progs !! g = Some (pre ++ current p ++ cs);
    i_made : ∀ t, sh_made (r_sh s) (OStream t) = sh_made w (OStream t);
    i_full : ∀ t, sh_full (r_sh s) (MOf (OStream t)) = sh_full w (MOf (OStream t));
    i_kept : ∀ m, (∃ b e, (e, Some m) ∈ sh_queue (r_sh s) b) ∨ (∃ b e, r_bs s b = Some (e, Some m)) →
      ∀ g p cs c, r_gs s !! g = Some (p, cs) → c ∈ current p ++ cs → m ∉ writes c }.

  Lemma says_of s g p cs c : inv s → r_gs s !! g = Some (p, cs) → c ∈ current p ++ cs → says progs g c.
  Proof using Type. intros HI E Hc. destruct (i_calls s HI g p cs E) as (_&pre&Ep). exists (pre ++ current p ++ cs). split; [done|]. apply elem_of_app. by right. Qed.

  Lemma merged_ok x jn sn cn : (rich x → sn = true) → ph_ok (merged sof x jn sn cn) ∧ current (merged sof x jn sn cn) = [CEmit x].
  Proof using Type.
    intros Hsn. unfold merged, of_em. destruct sn, jn, (em_inst x) as [c|] eqn:Ec, cn; cbn; split; try done; try (by auto 6);
      try (right; right; split; [by intros H%Hsn|]; eauto); unfold of_em; rewrite ?Ec; repeat (constructor; eauto 8).
  Qed.
  Lemma gstep_ok s g p cs w' p' cs' l : inv s → r_gs s !! g = Some (p, cs) → gstep sof g (r_sh s) p cs = Some (w', p', cs', l) →
    ph_ok p' ∧ ∃ pre, current p ++ cs = pre ++ current p' ++ cs'.
  Proof using HU.
    intros HI Eg E. destruct (i_calls s HI g p cs Eg) as (Hp&_).
    destruct p; cbn in E; cbn [ph_ok] in Hp; try (injection E as <- <- <- <-).
    - destruct cs as [|c cs]; [done|]. injection E as <- <- <- <-. split; [by destruct c|]. exists []. by destruct c.
    - destruct (sh_made _ _); (split; [done|by exists []]).
    - split; [done|by exists []].
    - split; [done|]. by exists [CKeyValue o].
    - split; [done|]. by exists [CInst c].
    - split; [done|by exists []].
    - split; [done|]. by exists [CAddSink s0 k].
    - destruct (sh_made _ _); (split; [done|by exists []]).
    - split; [done|by exists []].
    - destruct (sh_made _ _) eqn:Em; (split; [|by exists []]); [done|]. cbn. intros [Hr _]. rewrite <-(i_made s HI) in Hr. congruence.
    - split; [|by exists []]. cbn. intros [_ Hr]. by rewrite (i_full s HI).
    - destruct (merged_ok x jn sn (match em_inst x with Some c => sh_full (r_sh s) (MInst c) | None => false end) Hp) as [H1 H2]. split; [done|]. exists []. by rewrite H2.
    - destruct ms as [|m ms]; injection E as <- <- <- <-; (split; [|by exists []]); [by left|]. by inversion Hp.
    - split; [done|by exists []].
    - destruct ks as [|[] ks]; injection E as <- <- <- <-; try (split; [done|by exists []]).
      destruct (em_err x); [destruct (sh_flag _ _)|]; (split; [done|by exists []]).
    - destruct (em_err x); [|done]. case_decide; [|done]. injection E as <- <- <- <-. split; [done|by exists []].
    - split; [done|]. by exists [CEmit x].
  Qed.
  Lemma gstep_shared s g p cs w' p' cs' l : inv s → r_gs s !! g = Some (p, cs) → gstep sof g (r_sh s) p cs = Some (w', p', cs', l) →
    (∀ t, sh_made w' (OStream t) = sh_made w (OStream t)) ∧ (∀ t, sh_full w' (MOf (OStream t)) = sh_full w (MOf (OStream t))) ∧
    ∀ b, sh_queue w' b = sh_queue (r_sh s) b ∨ ∃ x m ks e, p = EmSend x m b ks ∧ em_err x = Some e ∧ sh_queue w' b = sh_queue (r_sh s) b ++ [(e, m)].
  Proof using HU.
    intros HI Eg E. pose proof (i_made s HI) as Hm. pose proof (i_full s HI) as Hf.
    assert (Hs : ∀ o, CKeyValue o ∈ current p → ∀ t, o ≠ OStream t).
    { intros o Ho t ->. apply (uw_setup _ _ _ _ HU g (CKeyValue (OStream t))). eapply says_of; [done..|]. apply elem_of_app. by left. }
    destruct p; cbn in E; try (injection E as <- <- <- <-); try (by auto).
    - destruct cs as [|c cs]; [done|]. injection E as <- <- <- <-. auto.
    - split_and!; [|done|by left]. intros t. cbn. rewrite fn_lookup_insert_ne; [done|]. apply Hs. by left.
    - split_and!; [done| |by left]. intros t. cbn. rewrite fn_lookup_insert_ne; [done|]. intros [= H]. revert H. apply Hs. by left.
    - destruct ms as [|m ms]; injection E as <- <- <- <-; auto.
    - destruct ks as [|[] ks]; injection E as <- <- <- <-; auto. destruct (em_err x); auto.
    - destruct (em_err x) as [e|] eqn:Ee; [|done]. case_decide; [|done]. injection E as <- <- <- <-. split_and!; [done..|].
      intros b'. cbn. destruct (decide (b' = b)) as [->|Hb].
      + right. exists x, m, ks, e. rewrite fn_lookup_insert. done.
      + left. rewrite fn_lookup_insert_ne by done. done.
    - destruct (em_err x); auto.
  Qed.
  Lemma inv_start : inv (starts_with w progs).
  Proof using HQ.
    split; try done.
    - intros g p cs E. apply starts_at in E as [-> E]. split; [done|]. by exists [].
    - intros m [(b&e&H)|(b&e&H)]; [|done]. cbn in H. rewrite (proj1 HQ) in H. by apply elem_of_nil in H.
  Qed.
  Lemma inv_step s a s' x : inv s → rstep sof s a = Some (s', x) → inv s'.
  Proof using HU.
    intros HI E. destruct a as [g|b|b|i|i]; cbn in E.
    - destruct (r_gs s !! g) as [[p cs]|] eqn:Eg; [|done]. cbn in E. destruct (gstep sof g (r_sh s) p cs) as [[[[w' p'] cs'] l]|] eqn:Es; [|done].
      cbn in E. injection E as <- <-. destruct (gstep_ok _ _ _ _ _ _ _ _ HI Eg Es) as (Hp&pre&Ep). destruct (gstep_shared _ _ _ _ _ _ _ _ HI Eg Es) as (Hm&Hf&Hq).
      split; cbn; [| done|done|].
      + intros h q ds Eh. apply list_lookup_insert_Some in Eh as [(<-&[= <- <-]&_)|(Hne&Eh)]; [|by apply (i_calls s HI)].
        split; [done|]. destruct (i_calls s HI g p cs Eg) as (_&pre'&Ep'). exists (pre' ++ pre). rewrite Ep', Ep. by rewrite <-!app_assoc.
      + assert (Hold : ∀ m, (∃ b e, (e, Some m) ∈ sh_queue (r_sh s) b) ∨ (∃ b e, r_bs s b = Some (e, Some m)) →
          ∀ h q ds c, <[g:=(p', cs')]> (r_gs s) !! h = Some (q, ds) → c ∈ current q ++ ds → m ∉ writes c).
        { intros m H h q ds c Eh Hc. apply list_lookup_insert_Some in Eh as [(<-&[= <- <-]&_)|(Hne&Eh)].
          - apply (i_kept s HI m H g p cs); [done|]. rewrite Ep. apply elem_of_app. by right.
          - by apply (i_kept s HI m H h q ds). }
        intros m [(b&e&H)|(b&e&H)]; [|apply Hold; eauto]. destruct (Hq b) as [Hq'|(x0&m0&ks&e0&->&Ee&Hq')]; rewrite Hq' in H; [apply Hold; eauto|].
        apply elem_of_app in H as [H|H]; [apply Hold; eauto|]. apply elem_of_list_singleton in H. injection H as -> <-. clear Hold.
        intros h q ds c Eh Hc Hw. assert (says progs h c) as Hh.
        { apply list_lookup_insert_Some in Eh as [(<-&[= <- <-]&_)|(Hne&Eh)].
          - eapply says_of; [exact HI|exact Eg|]. rewrite Ep. apply elem_of_app. by right.
          - by eapply says_of. }
        assert (says progs g (CEmit x0)) as Hg. { eapply says_of; [exact HI|exact Eg|]. by left. }
        destruct (i_calls s HI g _ _ Eg) as (Hok&pre'&Ep'). cbn [ph_ok good_m] in Hok. cbn [current] in Ep'.
        destruct Hok as [->|[->|(Hr&Hok)]].
        * destruct c; cbn in Hw; by repeat (apply elem_of_cons in Hw as [Hw|Hw]; [done|]); apply elem_of_nil in Hw.
        * pose proof (uw_setup _ _ _ _ HU h c Hh) as Hset. destruct c; cbn in Hw; repeat (apply elem_of_cons in Hw as [Hw|Hw]; [|]); try done; try by apply elem_of_nil in Hw.
          injection Hw as <-. done.
        * destruct (uw_kept _ _ _ _ HU g pre' x0 cs e0 Ep' Ee) as [H|[K1 K2]]; [by destruct Hr|]. destruct Hok as [->|(c0&Ec&->)].
          -- assert (c = CKeyValue (OJob (em_job x0))) as ->.
             { destruct c; cbn in Hw; repeat (apply elem_of_cons in Hw as [Hw|Hw]; [|]); try done; try by apply elem_of_nil in Hw. congruence. }
             pose proof (uw_job _ _ _ _ HU h g (em_job x0) (CEmit x0) Hh Hg eq_refl) as ->.
             apply list_lookup_insert_Some in Eh as [(_&[= <- <-]&_)|(Hne&_)]; [|done].
             assert (CKeyValue (OJob (em_job x0)) ∈ CEmit x0 :: cs) as Hin. { change (CEmit x0 :: cs) with (current (EmSend x0 (Some (MOf (OJob (em_job x0)))) b ks) ++ cs). rewrite Ep. apply elem_of_app. by right. }
             apply elem_of_cons in Hin as [Hin|Hin]; done.
          -- assert (c = CInst c0) as ->.
             { destruct c; cbn in Hw; repeat (apply elem_of_cons in Hw as [Hw|Hw]; [|]); try done; try by apply elem_of_nil in Hw. congruence. }
             pose proof (uw_map _ _ _ _ HU h g c0 (CEmit x0) Hh Hg Ec) as ->.
             apply list_lookup_insert_Some in Eh as [(_&[= <- <-]&_)|(Hne&_)]; [|done].
             assert (CInst c0 ∈ CEmit x0 :: cs) as Hin. { change (CEmit x0 :: cs) with (current (EmSend x0 (Some (MInst c0)) b ks) ++ cs). rewrite Ep. apply elem_of_app. by right. }
             apply elem_of_cons in Hin as [Hin|Hin]; [done|]. by apply (K2 c0).
    - destruct (r_bs s b) eqn:Eb; [done|]. destruct (sh_queue (r_sh s) b) as [|[e m] q] eqn:Eq; [done|]. injection E as <- <-.
      destruct HI as [H1 H2 H3 H4]. split; cbn; [done..|]. intros m' [(b'&e'&H)|(b'&e'&H)]; apply H4.
      + left. exists b', e'. destruct (decide (b' = b)) as [->|Hb]; [rewrite fn_lookup_insert in H|by rewrite fn_lookup_insert_ne in H by done]. rewrite Eq. by right.
      + destruct (decide (b' = b)) as [->|Hb]; [rewrite fn_lookup_insert in H|rewrite fn_lookup_insert_ne in H by done; right; eauto].
        injection H as -> ->. left. exists b, e'. rewrite Eq. by left.
    - destruct (r_bs s b) as [[e m]|] eqn:Eb; [|done]. injection E as <- <-. destruct HI as [H1 H2 H3 H4]. split; cbn; [done..|].
      intros m' [(b'&e'&H)|(b'&e'&H)]; apply H4; [eauto|]. right. exists b', e'.
      destruct (decide (b' = b)) as [->|Hb]; [by rewrite fn_lookup_insert in H|by rewrite fn_lookup_insert_ne in H by done].
    - destruct (r_now s i) eqn:Eb; [done|]. destruct (sh_polls (r_sh s) i); [done|]. injection E as <- <-. by destruct HI.
    - destruct (r_now s i) eqn:Eb; [|done]. injection E as <- <-. by destruct HI.
  Qed.

  (** which errors reach which sink *)
  Definition sk_ok (p : ph) : Prop :=
    match p with
    | EmAt x _ ks => ∀ k : skind, k ∈ ks → k ∈ sh_sinks w (sof (em_job x))
    | EmSend x _ b ks => SkBugsnag b ∈ sh_sinks w (sof (em_job x)) ∧ ∀ k : skind, k ∈ ks → k ∈ sh_sinks w (sof (em_job x))
    | _ => True
    end.
  Record inv2 (s : rstate) : Prop := {
    j_ph : ∀ g p cs, r_gs s !! g = Some (p, cs) → sk_ok p;
    j_sinks : ∀ t, sh_sinks (r_sh s) t = sh_sinks w t;
    j_bug : ∀ b e m, (e, m) ∈ sh_queue (r_sh s) b ∨ r_bs s b = Some (e, m) → goes_to sof w progs e (SkBugsnag b);
    j_poll : ∀ i e, e ∈ sh_polls (r_sh s) i ∨ r_now s i = Some e ∨ e ∈ r_seen s i → goes_to sof w progs e (SkPoll i) }.
  Lemma gstep_sinks s g p cs w' p' cs' l : inv s → inv2 s → r_gs s !! g = Some (p, cs) → gstep sof g (r_sh s) p cs = Some (w', p', cs', l) →
    sk_ok p' ∧ (∀ t, sh_sinks w' t = sh_sinks (r_sh s) t) ∧
    (∀ i, sh_polls w' i = sh_polls (r_sh s) i ∨ ∃ e, sh_polls w' i = sh_polls (r_sh s) i ++ [e] ∧ goes_to sof w progs e (SkPoll i)).
  Proof using HU.
    intros HI HJ Eg E. pose proof (j_ph s HJ g p cs Eg) as Hp. pose proof (j_sinks s HJ) as Hs.
    assert (Hset : ∀ t k, CAddSink t k ∉ current p).
    { intros t k Ho. apply (uw_setup _ _ _ _ HU g (CAddSink t k)). eapply says_of; [done..|]. apply elem_of_app. by left. }
    assert (Hsays : ∀ x, CEmit x ∈ current p → says progs g (CEmit x)).
    { intros x Hx. eapply says_of; [done..|]. apply elem_of_app. by left. }
    destruct p; cbn in E; cbn [sk_ok] in Hp; try (injection E as <- <- <- <-); try (by split_and!; auto).
    - destruct cs as [|c cs]; [done|]. injection E as <- <- <- <-. split_and!; [by destruct c|auto..].
    - destruct (sh_made _ _); by split_and!; auto.
    - exfalso. apply (Hset s0 k). by left.
    - destruct (sh_made _ _); by split_and!; auto.
    - destruct (sh_made _ _); by split_and!; auto.
    - split_and!; [|by auto..]. unfold merged. by destruct sn, jn, (em_inst x) as [c|]; cbn; try destruct (sh_full _ _).
    - destruct ms as [|m ms]; injection E as <- <- <- <-; by split_and!; auto.
    - split_and!; [|by auto..]. cbn. intros k. by rewrite Hs.
    - destruct ks as [|k ks]; [injection E as <- <- <- <-; by split_and!; auto|].
      assert (H1 : k ∈ sh_sinks w (sof (em_job x))) by (apply Hp; by left). assert (H2 : ∀ k : skind, k ∈ ks → k ∈ sh_sinks w (sof (em_job x))) by (intros k' Hk; apply Hp; by right).
      destruct k as [| |b|i]; injection E as <- <- <- <-; try (by split_and!; auto).
      + destruct (em_err x); [destruct (sh_flag _ _)|]; by split_and!; auto.
      + destruct (em_err x) as [e|] eqn:Ee; [|by split_and!; auto]. split_and!; [done..|]. intros i'. cbn.
        destruct (decide (i' = i)) as [->|Hi]; [|left; by rewrite fn_lookup_insert_ne]. right. exists e. rewrite fn_lookup_insert. split; [done|].
        exists g, x. split; [|done]. apply Hsays. by left.
    - destruct (em_err x) as [e|] eqn:Ee; [|done]. case_decide; [|done]. injection E as <- <- <- <-. split_and!; [|by auto..]. cbn. by destruct Hp.
    - destruct (em_err x); by split_and!; auto.
  Qed.
  Lemma inv2_start : inv2 (starts_with w progs).
  Proof using HQ.
    split; try done.
    - intros g p cs E. by apply starts_at in E as [-> E].
    - intros b e m [H|H]; [|done]. cbn in H. rewrite (proj1 HQ) in H. by apply elem_of_nil in H.
    - intros i e [H|[H|H]]; [|done|by apply elem_of_nil in H]. cbn in H. rewrite (proj2 HQ) in H. by apply elem_of_nil in H.
  Qed.
  Lemma inv2_step s a s' x : inv s → inv2 s → rstep sof s a = Some (s', x) → inv2 s'.
  Proof using HU.
    intros HI HJ E. destruct a as [g|b|b|i|i]; cbn in E.
    - destruct (r_gs s !! g) as [[p cs]|] eqn:Eg; [|done]. cbn in E. destruct (gstep sof g (r_sh s) p cs) as [[[[w' p'] cs'] l]|] eqn:Es; [|done].
      cbn in E. injection E as <- <-. destruct (gstep_sinks _ _ _ _ _ _ _ _ HI HJ Eg Es) as (Hp&Hs&Hq). destruct (gstep_shared _ _ _ _ _ _ _ _ HI Eg Es) as (_&_&Hb).
      pose proof (j_ph s HJ g p cs Eg) as Hp0.
      split; cbn.
      + intros h q ds Eh. apply list_lookup_insert_Some in Eh as [(<-&[= <- <-]&_)|(Hne&Eh)]; [done|]. by apply (j_ph s HJ h q ds).
      + intros t. rewrite Hs. apply (j_sinks s HJ).
      + intros b e m [H|H]; [|apply (j_bug s HJ b e m); by right]. destruct (Hb b) as [Hb'|(x0&m0&ks&e0&->&Ee&Hb')]; rewrite Hb' in H; [apply (j_bug s HJ b e m); by left|].
        apply elem_of_app in H as [H|H]; [apply (j_bug s HJ b e m); by left|]. apply elem_of_list_singleton in H. injection H as -> ->.
        exists g, x0. destruct Hp0 as [Hp0 _]. split; [|done]. eapply says_of; [exact HI|exact Eg|]. by left.
      + intros i e [H|H]; [|apply (j_poll s HJ i e); by right]. destruct (Hq i) as [Hq'|(e0&Hq'&Hg)]; rewrite Hq' in H; [apply (j_poll s HJ i e); by left|].
        apply elem_of_app in H as [H|H]; [apply (j_poll s HJ i e); by left|]. by apply elem_of_list_singleton in H as ->.
    - destruct (r_bs s b) eqn:Eb; [done|]. destruct (sh_queue (r_sh s) b) as [|[e m] q] eqn:Eq; [done|]. injection E as <- <-.
      destruct HJ as [H1 H2 H3 H4]. split; cbn; [done..| |done]. intros b' e' m' H. destruct (decide (b' = b)) as [->|Hb].
      + rewrite !fn_lookup_insert in H. apply (H3 b e' m'). left. rewrite Eq. destruct H as [H|[= -> ->]]; [by right|by left].
      + rewrite !fn_lookup_insert_ne in H by done. by apply (H3 b' e' m').
    - destruct (r_bs s b) as [[e m]|] eqn:Eb; [|done]. injection E as <- <-. destruct HJ as [H1 H2 H3 H4]. split; cbn; [done..| |done].
      intros b' e' m' H. apply (H3 b' e' m'). destruct H as [H|H]; [by left|right]. destruct (decide (b' = b)) as [->|Hb]; [by rewrite fn_lookup_insert in H|by rewrite fn_lookup_insert_ne in H by done].
    - destruct (r_now s i) eqn:Eb; [done|]. destruct (sh_polls (r_sh s) i) as [|e q] eqn:Eq; [done|]. injection E as <- <-.
      destruct HJ as [H1 H2 H3 H4]. split; cbn; [done..|]. intros i' e' H. destruct (decide (i' = i)) as [->|Hi].
      + rewrite !fn_lookup_insert in H. apply H4. rewrite Eq. destruct H as [H|[[= ->]|H]]; [left; by right|left; by left|auto].
      + rewrite !fn_lookup_insert_ne in H by done. by apply H4.
    - destruct (r_now s i) as [e|] eqn:Eb; [|done]. injection E as <- <-. destruct HJ as [H1 H2 H3 H4]. split; cbn; [done..|].
      intros i' e' H. destruct (decide (i' = i)) as [->|Hi].
      + rewrite !fn_lookup_insert in H. apply H4. destruct H as [H|[H|H]]; [by left|done|]. apply elem_of_cons in H as [->|H]; auto.
      + rewrite !fn_lookup_insert_ne in H by done. by apply H4.
  Qed.
  Lemma no_paccs s i x : inv2 s → x ∉ paccs same (r_seen s i) (r_now s i).
  Proof using HU.
    intros HJ Hx. destruct (r_now s i) as [e|] eqn:En; [|by apply elem_of_nil in Hx]. cbn in Hx.
    apply elem_of_list_In, in_concat in Hx as (xs&Hxs&Hx). apply in_map_iff in Hxs as (l&<-&Hl). apply elem_of_list_In in Hl.
    case_bool_decide as Hne; [|done]. destruct (same l e) eqn:Es; [|done].
    apply Hne. apply (uw_polling _ _ _ _ HU e l i); [apply (j_poll s HJ); auto..|done].
  Qed.
  Lemma in_baccs sh e m x : x ∈ baccs sh (Some (e, m)) → x = Rd (LFrames e) ∨ x = Wr (LFrames e) ∨ ∃ m', m = Some m' ∧ x = Rd (LMap m').
  Proof using Type.
    clear. cbn. intros H. apply elem_of_cons in H as [->|H]; [by left|]. apply elem_of_app in H as [H|H].
    - destruct (sh_framed sh e); [by apply elem_of_nil in H|]. apply elem_of_list_singleton in H. auto.
    - destruct m as [m|]; [|by apply elem_of_nil in H]. apply elem_of_list_singleton in H. eauto.
  Qed.

  (** what an access says about the call *)
  Definition touched (x : acc) : loc := match x with Rd l | Wr l => l end.
  Lemma touch p x : ph_ok p → x ∈ accs sof p →
    ∃ c, current p = [c] ∧
    match touched x with
    | LField (OJob j) | LMap (MOf (OJob j)) => on_job j c
    | LMap (MInst i) => on_map i c
    | LFlag e => reports e c
    | LFrames _ => False
    | _ => True
    end.
  Proof using Type.
    intros Hp Hx. destruct p; cbn in Hx; cbn [current].
    all: repeat first [by apply elem_of_nil in Hx|apply elem_of_cons in Hx as [->|Hx]; [eexists; split; [done|]; cbn; try (by destruct o); try done|]].
    - destruct (em_inst x0) as [c|] eqn:Ec; [|by apply elem_of_nil in Hx]. apply elem_of_list_singleton in Hx as ->. eexists; split; [done|]. done.
    - destruct ms as [|m ms]; [by apply elem_of_nil in Hx|]. inversion Hp as [|? ? Hm _]; subst.
      eexists; split; [done|]. destruct Hm as [->|[->|(c&Ec&->)]]; repeat first [by apply elem_of_nil in Hx|apply elem_of_cons in Hx as [->|Hx]; [done|]].
    - cbn in Hp. destruct ks as [|[] ks]; try by apply elem_of_nil in Hx.
      + destruct m as [m|]; [|by apply elem_of_nil in Hx]. apply elem_of_list_singleton in Hx as ->. eexists; split; [done|].
        destruct Hp as [->|[->|(_&[->|(c&Ec&->)])]]; done.
      + destruct (em_err x0) eqn:Ee; [|by apply elem_of_nil in Hx]. apply elem_of_list_singleton in Hx as ->. eexists; split; [done|]. done.
    - destruct (em_err x0) eqn:Ee; [|by apply elem_of_nil in Hx]. apply elem_of_list_singleton in Hx as ->. eexists; split; [done|]. done.
  Qed.
  Lemma inv_no_race s : inv s → inv2 s → ¬ race sof same s.
  Proof using HU.
    intros HI HJ (a&b&l&Hab&Ha&Hb). destruct a as [g|i|i]; cbn in Ha; [| |by apply (no_paccs s i (Wr l))].
    2:{ destruct (r_bs s i) as [[e m]|] eqn:Ei; [|by apply elem_of_nil in Ha]. apply in_baccs in Ha as [Ha|[Ha|(m'&_&Ha)]]; try done. injection Ha as ->.
      assert (Hb' : ∃ y, touched y = LFrames e ∧ about_to sof same s b y) by (destruct Hb as [Hb|Hb]; eexists; (split; [|exact Hb]); done). clear Hb.
      destruct Hb' as (y&Hy&Hb). destruct b as [h|j|j]; cbn in Hb; [| |by apply (no_paccs s j y)].
      - destruct Hb as (q&ds&Eh&Hy'). destruct (i_calls s HI h q ds Eh) as (Hq&_). destruct (touch q y Hq Hy') as (d&_&Hd). by rewrite Hy in Hd.
      - destruct (r_bs s j) as [[e' m']|] eqn:Ej; [|by apply elem_of_nil in Hb].
        assert (e' = e) as -> by (apply in_baccs in Hb as [->|[->|(?&_&->)]]; cbn in Hy; congruence).
        apply Hab. f_equal. apply (uw_bugsnag _ _ _ _ HU e i j); [eapply (j_bug s HJ); by right..]. }
    destruct Ha as (p&cs&Eg&Hx). destruct (i_calls s HI g p cs Eg) as (Hp&_).
    assert (Hb' : ∃ y, touched y = l ∧ about_to sof same s b y) by (destruct Hb as [Hb|Hb]; eexists; (split; [|exact Hb]); done). clear Hb.
    destruct Hb' as (y&Hy&Hb). destruct (touch p (Wr l) Hp Hx) as (c&Ec&Ht). cbn [touched] in Ht.
    assert (Hs : says progs g c). { eapply says_of; [done|exact Eg|]. rewrite Ec. by left. }
    (* what is written *)
    assert (Hw : (∃ j, (l = LField (OJob j) ∨ l = LMap (MOf (OJob j))) ∧ c = CKeyValue (OJob j)) ∨ (∃ i, l = LMap (MInst i) ∧ c = CInst i) ∨ ∃ e, l = LFlag e ∧ reports e c).
    { pose proof (uw_setup _ _ _ _ HU g c Hs) as Hset. destruct p; cbn in Hx, Ec; try injection Ec as <-;
        repeat first [by apply elem_of_nil in Hx|apply elem_of_cons in Hx as [Hx|Hx]; [try discriminate; injection Hx as ->|]]; try (destruct o; [|done]; left; eauto); try done.
      - right. left. eauto.
      - destruct (em_inst x); repeat first [by apply elem_of_nil in Hx|apply elem_of_cons in Hx as [Hx|Hx]; [done|]].
      - destruct ms as [|[] ms]; repeat first [by apply elem_of_nil in Hx|apply elem_of_cons in Hx as [Hx|Hx]; [done|]].
      - destruct ks as [|[] ks]; [|destruct m| |destruct (em_err x)|]; repeat first [by apply elem_of_nil in Hx|apply elem_of_cons in Hx as [Hx|Hx]; [done|]].
      - right. right. destruct (em_err x) eqn:Ee; [|by apply elem_of_nil in Hx]. apply elem_of_list_singleton in Hx. injection Hx as ->. eauto. }
    destruct b as [h|i|i]; cbn in Hb; [| |by apply (no_paccs s i y)].
    - destruct Hb as (q&ds&Eh&Hy'). destruct (i_calls s HI h q ds Eh) as (Hq&_). destruct (touch q y Hq Hy') as (d&Ed&Hd). rewrite Hy in Hd.
      assert (Hsd : says progs h d). { eapply says_of; [done|exact Eh|]. rewrite Ed. by left. }
      destruct Hab. f_equal. destruct Hw as [(j&[-> | ->]&->)|[(i&->&->)|(e&->&He)]].
      + by apply (uw_job _ _ _ _ HU g h j d).
      + by apply (uw_job _ _ _ _ HU g h j d).
      + by apply (uw_map _ _ _ _ HU g h i d).
      + by apply (uw_err _ _ _ _ HU g h e c d).
    - destruct (r_bs s i) as [[e m]|] eqn:Ei; [|by apply elem_of_nil in Hb].
      apply in_baccs in Hb as [->|[->|(m'&->&->)]]; cbn in Hy; subst l; [by destruct Ht..|].
      apply (i_kept s HI m' (or_intror (ex_intro _ i (ex_intro _ e Ei))) g p cs c Eg). { rewrite Ec. by left. }
      destruct Hw as [(j&[H|H]&->)|[(i'&H&->)|(e'&H&_)]]; try done; injection H as ->; by left.
  Qed.
  Lemma thm_no_race s tr : executes sof w progs s tr → ¬ race sof same s.
  Proof using HU HQ.
    intros H. assert (inv s ∧ inv2 s) as [? ?]; [|by apply inv_no_race]. revert s tr H.
    apply (executes_ind sof w progs (λ s _, inv s ∧ inv2 s)); [split; [apply inv_start|apply inv2_start]|].
    intros s tr a s' x [HI HJ] E. split; [by eapply inv_step|by eapply inv2_step].
  Qed.
End use.

(** ** Notifications *)
Lemma merged_cases sof x jn sn cn : (∃ m, merged sof x jn sn cn = EmSinks x m) ∨ ∃ ms, merged sof x jn sn cn = EmCopy x ms.
Proof. unfold merged. destruct sn, jn, (em_inst x), cn; cbn; eauto. Qed.
Lemma overlapping_app e a b : overlapping e (a ++ b) = (overlapping e a + if existsb (returned e) a then 0 else overlapping e b)%nat.
Proof. induction a as [|x a IH]; [done|]. cbn. destruct (returned e x); [done|]. rewrite IH. cbn. lia. Qed.
Lemma sends_app b e x y : sends b e (x ++ y) = (sends b e x + sends b e y)%nat.
Proof. unfold sends. by rewrite filter_app, app_length. Qed.
Lemma sends_other b e x : (∀ b e, x ≠ LSend b e) → sends b e [x] = 0%nat.
Proof. intros H. unfold sends. by rewrite filter_cons, decide_False by apply H. Qed.
Lemma sends_nil b e : sends b e [] = 0%nat.
Proof. done. Qed.
Local Arguments sends _ _ _ : simpl never.
Lemma sum_insert {A} (f : A → nat) (l : list A) g x y : l !! g = Some x → (sum_list (map f (<[g:=y]> l)) + f x = sum_list (map f l) + f y)%nat.
Proof.
  revert g. induction l as [|a l IH]; intros [|g] E; try done.
  - injection E as ->. cbn. lia.
  - specialize (IH g E). change (<[S g:=y]> (a :: l)) with (a :: <[g:=y]> l). cbn [map sum_list sum_list_with]. lia.
Qed.
Lemma sum_mono {A} (f f' : A → nat) (l : list A) : (∀ x, f x ≤ f' x)%nat → (sum_list (map f l) ≤ sum_list (map f' l))%nat.
Proof. intros H. induction l as [|a l IH]; cbn; [done|]. specialize (H a). lia. Qed.

Section notify.
  Context (sof : nat → nat) (w : shared) (progs : list (list call)) (b e : nat).
  Context (HA : no_setup progs) (HF : sh_flag w e = false).

  Definition mine (x : em) : bool := bool_decide (em_err x = Some e).
  (** how often a goroutine may yet send [e] to [b] within its call *)
  Definition pot (f : bool) (p : ph) : nat :=
    match p with
    | EmJob x | EmJobLen x | EmStr x _ | EmStrLen x _ | EmInst x _ _ | EmCopy x _ | EmSinks x _ => if mine x then if f then 0 else 1 else 0
    | EmAt x _ ks => if mine x then if f then 0 else times b ks else 0
    | EmSend x _ b' ks => if mine x then (if decide (b' = b) then 1 else 0) + if f then 0 else times b ks else 0
    | _ => 0
    end%nat.
  Lemma pot_mono f p : (pot (true || f) p ≤ pot f p)%nat.
  Proof using Type. destruct p; cbn; try done; destruct (mine x), f; try lia. Qed.
  Lemma times_cons k ks : times b (k :: ks) = ((if decide (k = SkBugsnag b) then 1 else 0) + times b ks)%nat.
  Proof using Type. unfold times. rewrite filter_cons. by destruct (decide _). Qed.

  Definition no_adds (p : ph) (cs : list call) : Prop := ∀ s k, CAddSink s k ∉ current p ++ cs.
  Record cinv (s : rstate) (tr : list rlab) : Prop := {
    c_adds : ∀ g p cs, r_gs s !! g = Some (p, cs) → no_adds p cs;
    c_sinks : ∀ t, sh_sinks (r_sh s) t = sh_sinks w t;
    c_flag : sh_flag (r_sh s) e = existsb (returned e) tr;
    }.
  Lemma gstep_facts g sh p cs w' p' cs' l : no_adds p cs → gstep sof g sh p cs = Some (w', p', cs', l) →
    no_adds p' cs' ∧ (∀ t, sh_sinks w' t = sh_sinks sh t) ∧ sh_flag w' e = sh_flag sh e || existsb (returned e) l.
  Proof using Type.
    clear HA HF. intros Hn E. unfold no_adds in *. destruct p; cbn in E; try (injection E as <- <- <- <-); cbn [current app] in Hn; cbn [existsb orb returned].
    - destruct cs as [|c cs]; [done|]. injection E as <- <- <- <-. split; [by destruct c|]. cbn. by rewrite orb_false_r.
    - destruct (sh_made _ _); (split; [done|]); by rewrite orb_false_r.
    - split; [done|]. cbn. by rewrite orb_false_r.
    - split; [set_solver|]. cbn. by rewrite orb_false_r.
    - split; [set_solver|]. cbn. by rewrite orb_false_r.
    - split; [done|]. by rewrite orb_false_r.
    - exfalso. apply (Hn s k). by left.
    - destruct (sh_made _ _); (split; [done|]); by rewrite orb_false_r.
    - split; [done|]. by rewrite orb_false_r.
    - destruct (sh_made _ _); (split; [done|]); by rewrite orb_false_r.
    - split; [done|]. by rewrite orb_false_r.
    - rewrite orb_false_r. split; [|done]. by destruct (merged_cases sof x jn sn (match em_inst x with Some c => sh_full sh (MInst c) | None => false end)) as [[? ->]|[? ->]].
    - destruct ms; injection E as <- <- <- <-; cbn; rewrite orb_false_r; done.
    - split; [done|]. by rewrite orb_false_r.
    - destruct ks as [|[] ks]; injection E as <- <- <- <-; cbn; rewrite orb_false_r; try done.
      + split; [|done]. destruct (em_err x) as [e'|]; [destruct (sh_flag sh e')|]; done.
      + split; [done|]. by destruct (em_err x).
    - destruct (em_err x); [|done]. case_decide; [|done]. injection E as <- <- <- <-. cbn. rewrite orb_false_r. done.
    - split; [set_solver|]. cbn. rewrite orb_false_r. destruct (em_err x) as [e'|] eqn:Ee; cbn; (split; [done|]).
      + destruct (decide (e = e')) as [->|Hne]; [rewrite fn_lookup_insert, bool_decide_true by done; by rewrite orb_true_r|].
        rewrite fn_lookup_insert_ne by done. rewrite bool_decide_false by congruence. by rewrite orb_false_r.
      + by rewrite orb_false_r.
  Qed.
  Lemma cinv_start : cinv (starts_with w progs) [].
  Proof using HA HF.
    split; [|done|done]. intros g p cs E s k Hin. apply starts_at in E as [-> E]. apply (HA g s k). exists cs. done.
  Qed.
  Lemma rstep_cases s a s' x : rstep sof s a = Some (s', x) →
    (∃ g p cs w' p' cs', a = AG g ∧ r_gs s !! g = Some (p, cs) ∧ gstep sof g (r_sh s) p cs = Some (w', p', cs', x) ∧ s' = RState w' (<[g := (p', cs')]> (r_gs s)) (r_bs s) (r_seen s) (r_now s)) ∨
    x = [] ∧ r_gs s' = r_gs s ∧ sh_sinks (r_sh s') = sh_sinks (r_sh s) ∧ sh_flag (r_sh s') = sh_flag (r_sh s).
  Proof using Type.
    intros E. destruct a as [g|i|i|i|i]; cbn in E.
    - destruct (r_gs s !! g) as [[p cs]|] eqn:Eg; [|done]. cbn in E. destruct (gstep sof g (r_sh s) p cs) as [[[[w' p'] cs'] l]|] eqn:Es; [|done].
      cbn in E. injection E as <- <-. left. exists g, p, cs, w', p', cs'. done.
    - destruct (r_bs s i); [done|]. destruct (sh_queue (r_sh s) i) as [|[? ?] ?]; [done|]. injection E as <- <-. by right.
    - destruct (r_bs s i) as [[? ?]|]; [|done]. injection E as <- <-. by right.
    - destruct (r_now s i); [done|]. destruct (sh_polls (r_sh s) i); [done|]. injection E as <- <-. by right.
    - destruct (r_now s i); [|done]. injection E as <- <-. by right.
  Qed.
  Lemma cinv_step s tr a s' x : cinv s tr → rstep sof s a = Some (s', x) → cinv s' (tr ++ x).
  Proof using Type.
    intros [H1 H2 H3] E. apply rstep_cases in E as [(g&p&cs&w'&p'&cs'&->&Eg&Es&->)|(->&E1&E2&E3)].
    - destruct (gstep_facts g (r_sh s) p cs w' p' cs' x (H1 g p cs Eg) Es) as (F1&F2&F3). split; cbn.
      + intros h q ds Eh. apply list_lookup_insert_Some in Eh as [(<-&[= <- <-]&_)|(Hne&Eh)]; [done|]. by apply (H1 h).
      + intros t. by rewrite F2.
      + by rewrite F3, existsb_app, H3.
    - rewrite app_nil_r. split; [by rewrite E1|by rewrite E2|by rewrite E3].
  Qed.

  Section upper.
    Context (Honce : ∀ s, (times b (sh_sinks w s) ≤ 1)%nat).
    Lemma gstep_pot g sh p cs w' p' cs' l : (∀ t, sh_sinks sh t = sh_sinks w t) → gstep sof g sh p cs = Some (w', p', cs', l) →
      (sends b e l + pot (sh_flag w' e) p' ≤ pot (sh_flag sh e) p + if sh_flag sh e then 0 else overlapping e l)%nat.
    Proof using Honce.
      intros Hs E. destruct p; cbn in E; try (injection E as <- <- <- <-); cbn; rewrite ?sends_nil, ?sends_other by done.
      - destruct cs as [|c cs]; [done|]. injection E as <- <- <- <-. rewrite sends_other by done. destruct c; cbn; try lia. unfold mine. destruct (sh_flag sh e); [by case_bool_decide|]. case_bool_decide; lia.
      - destruct (sh_made _ _); cbn; lia.
      - lia.
      - lia.
      - lia.
      - lia.
      - lia.
      - destruct (sh_made _ _); cbn; lia.
      - lia.
      - destruct (sh_made _ _); cbn; lia.
      - lia.
      - assert (∀ c, pot (sh_flag sh e) (merged sof x jn sn c) = if mine x then if sh_flag sh e then 0 else 1 else 0)%nat as Hm; [|rewrite Hm; lia].
        intros c. by destruct (merged_cases sof x jn sn c) as [[? ->]|[? ->]].
      - destruct ms; injection E as <- <- <- <-; cbn; rewrite sends_nil; lia.
      - rewrite Hs. specialize (Honce (sof (em_job x))). destruct (mine x), (sh_flag sh e); lia.
      - destruct ks as [|k ks]; [injection E as <- <- <- <-; cbn; rewrite sends_nil; lia|].
        rewrite times_cons. destruct k as [| |b'|i]; injection E as <- <- <- <-; cbn; rewrite sends_nil; [destruct (mine x), (sh_flag sh e); lia..| |by destruct (em_err x); cbn; destruct (mine x), (sh_flag sh e); lia].
        unfold mine. destruct (em_err x) as [e'|] eqn:Ee; [|cbn; unfold mine; rewrite Ee, bool_decide_false by done; lia].
        destruct (decide (e' = e)) as [->|Hne].
        + rewrite bool_decide_true by done. destruct (sh_flag sh e) eqn:Ef; cbn; [destruct (mine x); lia|]. unfold mine. rewrite Ee, bool_decide_true by done.
          destruct (decide (b' = b)) as [->|Hb]; [rewrite decide_True by done|rewrite decide_False by congruence]; lia.
        + rewrite bool_decide_false by congruence. destruct (sh_flag sh e'); cbn; unfold mine; rewrite Ee, bool_decide_false by congruence; lia.
      - destruct (em_err x) as [e'|] eqn:Ee; [|done]. case_decide; [|done]. injection E as <- <- <- <-. cbn. unfold mine, sends. rewrite Ee, filter_cons.
        destruct (decide (LSend b0 e' = LSend b e)) as [[= -> ->]|Hne].
        + rewrite bool_decide_true by done. rewrite decide_True by done. cbn. destruct (sh_flag sh e); lia.
        + cbn. case_bool_decide as He; [|destruct (sh_flag sh e); lia]. destruct (sh_flag sh e); lia.
      - destruct (em_err x); cbn; lia.
    Qed.
    Definition total (f : bool) (gs : list (ph * list call)) : nat := sum_list (map (λ pc : ph * list call, pot f pc.1) gs).
    Lemma thm_upper s tr : executes sof w progs s tr → (sends b e tr ≤ overlapping e tr)%nat.
    Proof using HA HF Honce.
      intros H. assert (cinv s tr ∧ (sends b e tr + total (sh_flag (r_sh s) e) (r_gs s) ≤ overlapping e tr)%nat) as [_ ?]; [|lia].
      revert s tr H. apply (executes_ind sof w progs (λ s tr, cinv s tr ∧ (sends b e tr + total (sh_flag (r_sh s) e) (r_gs s) ≤ overlapping e tr)%nat)).
      - split; [apply cinv_start|]. cbn. unfold total. rewrite map_map. cbn. induction progs; cbn; [done|]. apply IHl. intros g s k (cs&E&Hc). apply (HA (S g) s k). by exists cs.
      - intros s tr a s' x [HI HS] E. split; [by eapply cinv_step|]. rewrite sends_app, overlapping_app.
        pose proof (c_flag s tr HI) as Hfl. apply rstep_cases in E as [(g&p&cs&w'&p'&cs'&->&Eg&Es&->)|(->&E1&E2&E3)].
        + pose proof (gstep_pot _ _ _ _ _ _ _ _ (c_sinks s tr HI) Es) as Hp.
          destruct (gstep_facts g (r_sh s) p cs w' p' cs' x (c_adds s tr HI g p cs Eg) Es) as (_&_&F3).
          assert (total (sh_flag w' e) (r_gs s) ≤ total (sh_flag (r_sh s) e) (r_gs s))%nat as Hmono.
          { apply sum_mono. intros [q ds]. cbn. rewrite F3. destruct (existsb _ x); [|by rewrite orb_false_r]. rewrite orb_true_r. pose proof (pot_mono (sh_flag (r_sh s) e) q) as Hq. by cbn in Hq. }
          pose proof (sum_insert (λ pc : ph * list call, pot (sh_flag w' e) pc.1) (r_gs s) g (p, cs) (p', cs') Eg) as Hsum. cbn in Hsum. cbn.
          assert (Hpg : (pot (sh_flag w' e) p + (total (sh_flag (r_sh s) e) (r_gs s) - pot (sh_flag (r_sh s) e) p) ≥ total (sh_flag w' e) (r_gs s))%nat ∧ (pot (sh_flag (r_sh s) e) p ≤ total (sh_flag (r_sh s) e) (r_gs s))%nat).
          { assert (Hm : ∀ q, (pot (sh_flag w' e) q ≤ pot (sh_flag (r_sh s) e) q)%nat).
            { intros q. rewrite F3. destruct (existsb _ x); [|by rewrite orb_false_r]. rewrite orb_true_r. pose proof (pot_mono (sh_flag (r_sh s) e) q) as Hq. by cbn in Hq. }
            clear -Eg Hm. revert g Eg. unfold total. induction (r_gs s) as [|[q ds] l IH]; intros [|g] Eg; cbn in *; try done.
            - injection Eg as -> ->. assert (sum_list (map (λ pc : ph * list call, pot (sh_flag w' e) pc.1) l) ≤ sum_list (map (λ pc : ph * list call, pot (sh_flag (r_sh s) e) pc.1) l))%nat by (apply sum_mono; intros [? ?]; apply Hm). lia.
            - specialize (IH g Eg). specialize (Hm q). lia. }
          unfold total in *. rewrite <-Hfl. destruct (sh_flag (r_sh s) e); lia.
        + rewrite E1, E3. cbn. destruct (existsb _ tr); unfold sends at 2; cbn; lia.
    Qed.
  End upper.

  Section lower.
    Context (Honce : ∀ s, (1 ≤ times b (sh_sinks w s))%nat).
    (** past the sink without having found the flag *)
    Definition past (p : ph) : Prop :=
      match p with
      | EmAt x _ ks => mine x = true ∧ times b ks = 0%nat
      | EmSend x _ b' ks => mine x = true ∧ b' ≠ b ∧ times b ks = 0%nat
      | EmMark x => mine x = true
      | _ => False
      end.
    Lemma gstep_past g sh p cs w' p' cs' l : (∀ t, sh_sinks sh t = sh_sinks w t) → sh_flag sh e = false → gstep sof g sh p cs = Some (w', p', cs', l) →
      past p' → past p ∨ (1 ≤ sends b e l)%nat.
    Proof using Honce.
      intros Hs Hf E Hp. destruct p; cbn in E; try (injection E as <- <- <- <-); cbn in Hp |- *; try done; try by left.
      - destruct cs as [|c cs]; [done|]. injection E as <- <- <- <-. by destruct c.
      - by destruct (sh_made _ _).
      - by destruct (sh_made _ _).
      - by destruct (sh_made _ _).
      - exfalso. revert Hp. by destruct (merged_cases sof x jn sn (match em_inst x with Some c => sh_full sh (MInst c) | None => false end)) as [[? ->]|[? ->]].
      - by destruct ms; injection E as <- <- <- <-.
      - destruct Hp as [_ Hp]. rewrite Hs in Hp. specialize (Honce (sof (em_job x))). lia.
      - destruct ks as [|k ks]; [injection E as <- <- <- <-; by left|]. rewrite times_cons. left.
        destruct k as [| |b'|i]; injection E as <- <- <- <-; cbn in Hp; [done..| |done].
        destruct (em_err x) as [e'|] eqn:Ee; [|exfalso; destruct Hp as [Hp _]; unfold mine in Hp; rewrite Ee in Hp; by apply bool_decide_eq_true in Hp].
        assert (mine x = true ∧ times b ks = 0%nat ∧ (e' = e → b' ≠ b)) as (M1&M2&M3).
        { destruct (sh_flag sh e') eqn:Ef; cbn in Hp; destruct_and!; split_and!; try done. intros ->. congruence. }
        split; [done|]. rewrite M2. unfold mine in M1. rewrite Ee in M1. apply bool_decide_eq_true in M1. injection M1 as ->. rewrite decide_False; [done|]. intros [= ->]. by apply M3.
      - destruct (em_err x) as [e'|] eqn:Ee; [|done]. case_decide; [|done]. injection E as <- <- <- <-. cbn in Hp. destruct Hp as [M1 M2].
        destruct (decide (b0 = b)) as [->|Hb]; [right|by left]. unfold mine in M1. rewrite Ee in M1. apply bool_decide_eq_true in M1. injection M1 as ->.
        unfold sends. rewrite filter_cons, decide_True by done. cbn. lia.
    Qed.
    Lemma gstep_marks g sh p cs w' p' cs' l : gstep sof g sh p cs = Some (w', p', cs', l) → existsb (returned e) l = true → past p.
    Proof using Type.
      intros E Hr. destruct p; cbn in E; try (injection E as <- <- <- <-); cbn in Hr; try done.
      - destruct cs as [|c cs]; [done|]. by injection E as <- <- <- <-.
      - by destruct ms; injection E as <- <- <- <-.
      - by destruct ks as [|[] ks]; injection E as <- <- <- <-.
      - destruct (em_err x) as [e'|] eqn:Ee; [|done]. case_decide; [|done]. by injection E as <- <- <- <-.
      - rewrite orb_false_r in Hr. done.
    Qed.
    Lemma thm_lower s tr : executes sof w progs s tr → existsb (returned e) tr = true → (1 ≤ sends b e tr)%nat.
    Proof using HA HF Honce.
      intros H. assert (cinv s tr ∧ (∀ g p cs, r_gs s !! g = Some (p, cs) → past p → 1 ≤ sends b e tr)%nat ∧ (existsb (returned e) tr = true → 1 ≤ sends b e tr)%nat) as (_&_&?); [|done].
      revert s tr H. apply (executes_ind sof w progs (λ s tr, cinv s tr ∧ (∀ g p cs, r_gs s !! g = Some (p, cs) → past p → 1 ≤ sends b e tr)%nat ∧ (existsb (returned e) tr = true → 1 ≤ sends b e tr)%nat)).
      - split; [apply cinv_start|]. split; [|done]. intros g p cs E. by apply starts_at in E as [-> E].
      - intros s tr a s' x (HI&H1&H2) E. split; [by eapply cinv_step|]. rewrite sends_app, existsb_app.
        pose proof (c_flag s tr HI) as Hfl. apply rstep_cases in E as [(g&p&cs&w'&p'&cs'&->&Eg&Es&->)|(->&E1&E2&E3)].
        + destruct (existsb (returned e) tr) eqn:Er. { specialize (H2 eq_refl). split; intros; lia. }
          split.
          * cbn. intros h q ds Eh Hp. apply list_lookup_insert_Some in Eh as [(<-&[= <- <-]&_)|(Hne&Eh)]; [|specialize (H1 h q ds Eh Hp); lia].
            destruct (gstep_past _ _ _ _ _ _ _ _ (c_sinks s tr HI) Hfl Es Hp) as [Hp'|?]; [specialize (H1 g p cs Eg Hp')|]; lia.
          * cbn. intros Hr. pose proof (gstep_marks _ _ _ _ _ _ _ _ Es Hr) as Hp. specialize (H1 g p cs Eg Hp). lia.
        + rewrite E1. cbn. rewrite orb_false_r. split; [intros h q ds Eh Hp; specialize (H1 h q ds Eh Hp)|intros Hr; specialize (H2 Hr)]; lia.
    Qed.
  End lower.
End notify.
