(** * A fair execution of healthd (C113) *)
From Verif Require Import SLive2 PFair PHealthd PHealthdEx PHealthdLoop PHealthdLoopEx.

Local Definition tm (n : nat) : Z := 3000000000 * (Z.of_nat n + 1).
Local Definition hp : string := "h:1".

Lemma never_wedged hosts x : is_exec hlstep x → x_at x 0%nat = hl_init hosts → (∀ n, taken_since_idle (acts x n) < 64) → ∀ n, ¬ wedged (x_at x n).
Proof.
  intros Hx H0 Ht n (El&Er&_). assert (H : hlsteps (hl_init hosts) (acts x n) (x_at x n)).
  { clear El Er. induction n as [|n IH]; [rewrite H0; constructor|]. rewrite acts_S.
    destruct (next _ x n Hx) as [[-> ->]|(a&->&Hs)]; [by rewrite app_nil_r|]. apply hlsteps_snoc. eauto. }
  pose proof (room _ _ _ H (Ht n) El). lia.
Qed.

(** nothing is waiting *)
Local Lemma quiet h d a s' : (∀ o, d ≠ DSnd o) → hlstep (HL h ASel [] 0 d [Some []] [] [] [] false [] []) a s' →
  match a.2 with
  | HTakeResp _ _ _ _ | HTakeNil _ _ | HTakeI _ | HTakeH _ _ | HFire _ | HStopTake _ | HQueue _ _ | HReq | HRet _ _ | HStopRet _ => False
  | _ => True
  end.
Proof.
  intros Hd St. remember (HL _ _ _ _ _ _ _ _ _ _ _ _) as s eqn:Es.
  destruct St as [| | |? ? ? ? ? ? ? El Eq|? ? ? ? ? El Eq|? ? El| | | |? ? ? ? El Hs| | |? ? ? p ? El Ep|? ? ? p ? El Ep|? ? ? ? El Ei|? ? ? ? ? El Ei|? ? ? ? El|? ? ? ? El| |? ? ? El Hi|? ? ? El]; subst s; cbn in *; try exact I.
  - discriminate Eq.
  - discriminate Eq.
  - discriminate El.
  - inversion Hs; subst. by eapply Hd.
  - by destruct p.
  - by destruct p.
  - discriminate Ei.
  - discriminate Ei.
  - discriminate El.
  - discriminate El.
  - by apply not_elem_of_nil in Hi.
  - discriminate El.
Qed.

(** one host answers once; a handler asks for the intervals; then the debouncer sleeps *)
Lemma healthd_fair_example : ∃ x, healthd_exec [hp] x ∧ healthd_fair x ∧ time_passes x ∧ never (is_act is_stop) x ∧
  x_act x 0%nat = Some (tm 0, HPush 0 (w_resp hp)) ∧ x_act x 1%nat = Some (tm 1, HCall 5 QIntervals) ∧
  (∃ a, x_act x 3%nat = Some (tm 3, HTakeResp 0 (w_resp hp) 0 0) ∧ x_act x 9%nat = Some (tm 9, HFire a)).
Proof.
  set (h0 := hd_init [hp]). destruct (w_consume h0 hp 0 0) as (h1&E1&_); [by left|].
  assert (Hnil : recalc h1 (the_order h1) = Ok (HD (hd_dur h1) (hd_max h1) (hd_pub h1) (hd_host h1) ∅ (hd_status h1)) ∧ hd_need h1 = ∅).
  { vm_compute in E1. injection E1 as <-. by vm_compute. }
  destruct Hnil as [E2 _]. set (h2 := HD _ _ _ _ _ _) in E2.
  set (o := the_order h1).
  set (S0 := hl_init [hp]).
  set (s1 := HL h0 ASel [(0%nat, Some (w_resp hp))] 0 (DTop 0) [Some []] [] [] [] false [] []).
  set (s2 := HL h0 ASel [(0%nat, Some (w_resp hp))] 0 (DTop 0) [Some []] [(5%nat, QIntervals)] [] [] false [] []).
  set (s3 := HL h0 ASel [(0%nat, Some (w_resp hp))] 0 (DTop 0) [Some []] [] [5%nat] [] false [] []).
  set (s4 := HL h1 AReq [] 0 (DTop 0) [Some []] [] [5%nat] [] false [] []).
  set (s5 := HL h1 ASel [] 1 (DTop 0) [Some []] [] [5%nat] [] false [] []).
  set (s6 := HL h1 ASel [] 0 (DChk (tm 5)) [Some []] [] [5%nat] [] false [] []).
  set (s7 := HL h1 ASel [] 0 (DSnd (tm 5)) [Some []] [] [5%nat] [] false [] []).
  set (s8 := HL h1 (AReplyI 5 (safe_intervals h1)) [] 0 (DSnd (tm 5)) [Some []] [] [] [] false [] []).
  set (s9 := HL h1 ASel [] 0 (DSnd (tm 5)) [Some []] [] [] [] false [] []).
  set (s10 := HL h2 ASel [] 0 (DTop 0) [Some []] [] [] [] false [] []).
  set (s11 := HL h2 ASel [] 0 (DChk 0) [Some []] [] [] [] false [] []).
  set (f := λ (n : nat) (s : hl), match n with
    | 0 => (Some (tm n, HPush 0 (w_resp hp)), s1)
    | 1 => (Some (tm n, HCall 5 QIntervals), s2)
    | 2 => (Some (tm n, HQueue 5 QIntervals), s3)
    | 3 => (Some (tm n, HTakeResp 0 (w_resp hp) 0 0), s4)
    | 4 => (Some (tm n, HReq), s5)
    | 5 => (Some (tm n, HDeb DTake), s6)
    | 6 => (Some (tm n, HDeb DCheck), s7)
    | 7 => (Some (tm n, HTakeI 5), s8)
    | 8 => (Some (tm n, HRet 5 (AnsI (safe_intervals h1))), s9)
    | 9 => (Some (tm n, HFire o), s10)
    | _ => match l_deb s with DTop _ => (Some (tm n, HDeb DIdle), s11) | _ => (Some (tm n, HDeb DCheck), s10) end
    end%nat).
  set (x := run f S0).
  assert (Hinv : ∀ n, (10 ≤ n)%nat → x_at x n = s10 ∨ x_at x n = s11).
  { apply (run_inv f S0 (λ _ s, s = s10 ∨ s = s11)); [by left|]. intros n s Hn Hs. do 10 (destruct n as [|n]; [lia|]). cbn [f]. destruct Hs as [->| ->]; [by right|by left]. }
  assert (Hstep : ∀ n, match (f n (x_at x n)).1 with Some a => hlstep (x_at x n) a (f n (x_at x n)).2 | None => (f n (x_at x n)).2 = x_at x n end).
  { intros n. destruct n as [|[|[|[|[|[|[|[|[|[|n]]]]]]]]]].
    - pose proof (Hl_push S0 (tm 0) 0 [hp] (w_resp hp)) as H. apply H; [done|done|by left|done].
    - pose proof (Hl_call s1 (tm 1) 5 QIntervals) as H. apply H; [done|done|]. unfold l_idle. cbn. split; [intros q; apply not_elem_of_nil|]. repeat split; try apply not_elem_of_nil; done.
    - pose proof (Hl_queue_i s2 (tm 2) 5 [] []) as H. apply H; done.
    - pose proof (Hl_take_resp s3 (tm 3) 0 (w_resp hp) [] 0 0 eq_refl eq_refl) as H. change (l_hd s3) with h0 in H. rewrite E1 in H. exact H.
    - pose proof (Hl_req s4 (tm 4)) as H. apply H; done.
    - pose proof (Hl_deb_take s5 (tm 5) (DChk (tm 5))) as H. apply H; [done|done|]. apply (Db_take threshold 0 (tm 5)).
    - pose proof (Hl_deb_check s6 (tm 6) (DSnd (tm 5))) as H. apply H; [done|]. apply (Db_check threshold (tm 5) (tm 6)).
    - pose proof (Hl_take_i s7 (tm 7) 5 []) as H. apply H; done.
    - pose proof (Hl_ret_i s8 (tm 8) 5 (safe_intervals h1)) as H. apply H; done.
    - pose proof (Hl_fire s9 (tm 9) o (DTop 0) eq_refl (Db_sent threshold (tm 5) (tm 9)) (the_order_ok h1)) as H. change (l_hd s9) with h1 in H. unfold o in H. rewrite E2 in H. exact H.
    - destruct (Hinv (10 + n)%nat ltac:(lia)) as [E|E]; cbn [Nat.add] in E; rewrite E; cbn [f l_deb s10 s11 fst snd].
      + pose proof (Hl_deb_idle s10 (tm (10 + n)) (DChk 0)) as H. apply H; [done|done|]. apply (Db_idle threshold 0).
      + pose proof (Hl_deb_check s11 (tm (10 + n)) (DTop 0)) as H. apply H; [done|]. apply (Db_check threshold 0 (tm (10 + n))). }
  assert (Hact : ∀ n t a, x_act x n = Some (t, a) → t = tm n ∧ match a with HStop _ => False | _ => True end).
  { intros n t a Ha. change (x_act x n) with (f n (x_at x n)).1 in Ha. destruct n as [|[|[|[|[|[|[|[|[|[|n]]]]]]]]]]; cbn [f fst] in Ha; try (injection Ha as <- <-; done).
    destruct (l_deb (x_at x (S (S (S (S (S (S (S (S (S (S n)))))))))))); injection Ha as <- <-; done. }
  assert (Hst : ∀ n, match l_loop (x_at x n) with ACrash => False | AReq => l_req (x_at x n) = 0 | _ => True end).
  { intros n. destruct n as [|[|[|[|[|[|[|[|[|[|n]]]]]]]]]]; try done. destruct (Hinv (10 + n)%nat ltac:(lia)) as [E|E]; cbn [Nat.add] in E; by rewrite E. }
  assert (Hno : ∀ P : hact → Prop, (∀ a s', hlstep s10 a s' → ¬ P a.2) → (∀ a s', hlstep s11 a s' → ¬ P a.2) → ∀ n, (10 ≤ n)%nat → ¬ possible hlstep (is_act P) (x_at x n)).
  { intros P Ha Hb n Hn (a&s'&Hp&Hs). destruct (Hinv n Hn) as [E|E]; rewrite E in Hs; [by apply (Ha a s')|by apply (Hb a s')]. }
  exists x. split; [|split; [|split; [|split; [|split; [done|split; [done|]]]]]].
  - constructor; [exact Hstep|done| |].
    + intros n E. specialize (Hst n). by rewrite E in Hst.
    + intros n (El&Er&_). specialize (Hst n). rewrite El, Er in Hst. done.
  - assert (Hs : ∀ P : hact → Prop, (∀ a s', hlstep s10 a s' → ¬ P a.2) → (∀ a s', hlstep s11 a s' → ¬ P a.2) → strongly_fair hlstep (is_act P) x).
    { intros P Ha Hb. apply (strong_impossible _ _ _ 10). by apply Hno. }
    assert (Hw : ∀ P : hact → Prop, (∀ a s', hlstep s10 a s' → ¬ P a.2) → (∀ a s', hlstep s11 a s' → ¬ P a.2) → weakly_fair hlstep (is_act P) x).
    { intros P Ha Hb. apply weak_impossible. intros n. exists (max n 10). split; [lia|]. apply Hno; [done|done|lia]. }
    assert (Q10 : ∀ a s', hlstep s10 a s' → _) by (intros a s'; apply quiet; done).
    assert (Q11 : ∀ a s', hlstep s11 a s' → _) by (intros a s'; apply quiet; done).
    constructor; [apply Hs|apply Hs|apply Hs|apply Hs|apply Hs|intros i; apply Hs|apply Hw|apply Hw| |apply Hw].
    17: { apply weak_happens. intros n. exists (10 + n)%nat. split; [lia|]. unfold happens. change (x_act x (10 + n)%nat) with (f (10 + n)%nat (x_at x (10 + n)%nat)).1.
      destruct (Hinv (10 + n)%nat ltac:(lia)) as [E|E]; rewrite E; cbn [f l_deb s10 s11 fst snd Nat.add]; eexists; (split; [reflexivity|done]). }
    all: intros [t a] s' Hst'; first [apply Q10 in Hst'|apply Q11 in Hst']; destruct a; cbn in *; try done; by intros [].
  - split.
    + intros n t a Ha. destruct (Hact n t a Ha) as [-> _]. unfold tm. lia.
    + intros T. exists (Z.to_nat T). intros n t a Hn Ha. destruct (Hact n t a Ha) as [-> _]. unfold tm. lia.
  - intros n ([t a]&Ha&Hp). destruct (Hact n t a Ha) as [_ H]. unfold is_act in Hp. cbn in Hp. by destruct a.
  - by exists o.
Qed.

Local Lemma gone_quiet h d a s' : hlstep (HL h AGone [] 0 d [Some []] [] [] [] true [] []) a s' →
  match a.2 with
  | HTakeResp _ _ _ _ | HTakeNil _ _ | HTakeI _ | HTakeH _ _ | HFire _ | HStopTake _ | HQueue _ _ | HReq | HRet _ _ | HStopRet _ => False
  | _ => True
  end.
Proof.
  intros St. remember (HL _ _ _ _ _ _ _ _ _ _ _ _) as s eqn:Es.
  destruct St as [| | |? ? ? ? ? ? ? El Eq|? ? ? ? ? El Eq|? ? El| | | |? ? ? ? El Hs| | |? ? ? p ? El Ep|? ? ? p ? El Ep|? ? ? ? El Ei|? ? ? ? ? El Ei|? ? ? ? El|? ? ? ? El| |? ? ? El Hi|? ? ? El]; subst s; cbn in *; try exact I; first [discriminate El|by destruct p].
Qed.
(** no host; somebody calls Stop; then the debouncer sleeps *)
Lemma healthd_stop_example : ∃ x, healthd_exec [] x ∧ healthd_fair x ∧ x_act x 0%nat = Some (tm 0, HStop 3) ∧
  (∀ m, happens (is_act is_stop) x m → m = 0%nat).
Proof.
  set (h0 := hd_init []).
  set (s1 := HL h0 ASel [] 0 (DTop 0) [Some []] [] [] [] true [3%nat] []).
  set (s2 := HL h0 ABye [] 0 (DTop 0) [Some []] [] [] [] true [] [3%nat]).
  set (s3 := HL h0 AGone [] 0 (DTop 0) [Some []] [] [] [] true [] []).
  set (s4 := HL h0 AGone [] 0 (DChk 0) [Some []] [] [] [] true [] []).
  set (f := λ (n : nat) (s : hl), match n with
    | 0 => (Some (tm n, HStop 3), s1)
    | 1 => (Some (tm n, HStopTake 3), s2)
    | 2 => (Some (tm n, HStopRet 3), s3)
    | _ => match l_deb s with DTop _ => (Some (tm n, HDeb DIdle), s4) | _ => (Some (tm n, HDeb DCheck), s3) end
    end%nat).
  set (x := run f (hl_init [])).
  assert (Hinv : ∀ n, (3 ≤ n)%nat → x_at x n = s3 ∨ x_at x n = s4).
  { apply (run_inv f (hl_init []) (λ _ s, s = s3 ∨ s = s4)); [by left|]. intros n s Hn Hs. do 3 (destruct n as [|n]; [lia|]). cbn [f]. destruct Hs as [->| ->]; [by right|by left]. }
  assert (Hstep : is_exec hlstep x).
  { apply run_exec. intros n. destruct n as [|[|[|n]]].
    - pose proof (Hl_stop (hl_init []) (tm 0) 3) as H. apply H; [done|]. split; apply not_elem_of_nil.
    - pose proof (Hl_stop_take s1 (tm 1) 3) as H. apply H; [done|]. by left.
    - pose proof (Hl_stop_ret s2 (tm 2) 3) as H. apply H; [done|]. by left.
    - change (run_at f (hl_init []) (S (S (S n)))) with (x_at x (S (S (S n)))).
      destruct (Hinv (S (S (S n))) ltac:(lia)) as [E|E]; rewrite E; cbn [f l_deb s3 s4 fst snd].
      + pose proof (Hl_deb_idle s3 (tm (3 + n)) (DChk 0)) as H. apply H; [done|done|]. apply (Db_idle threshold 0).
      + pose proof (Hl_deb_check s4 (tm (3 + n)) (DTop 0)) as H. apply H; [done|]. apply (Db_check threshold 0 (tm (3 + n))). }
  assert (Hst : ∀ n, match l_loop (x_at x n) with ACrash | AReq => False | _ => True end).
  { intros n. destruct n as [|[|[|n]]]; try done. destruct (Hinv (S (S (S n))) ltac:(lia)) as [E|E]; by rewrite E. }
  pose proof (gone_quiet h0) as Q.
  exists x. split; [|split; [|split; [done|]]].
  - constructor; [exact Hstep|done| |].
    + intros n E. specialize (Hst n). by rewrite E in Hst.
    + intros n (El&_). specialize (Hst n). by rewrite El in Hst.
  - assert (Hno : ∀ P : hact → Prop, (∀ d a s', hlstep (HL h0 AGone [] 0 d [Some []] [] [] [] true [] []) a s' → ¬ P a.2) → ∀ n, (3 ≤ n)%nat → ¬ possible hlstep (is_act P) (x_at x n)).
    { intros P Ha n Hn (a&s'&Hp&Hs). destruct (Hinv n Hn) as [E|E]; rewrite E in Hs; by apply (Ha _ a s' Hs). }
    assert (Hs : ∀ P : hact → Prop, (∀ d a s', hlstep (HL h0 AGone [] 0 d [Some []] [] [] [] true [] []) a s' → ¬ P a.2) → strongly_fair hlstep (is_act P) x).
    { intros P Ha. apply (strong_impossible _ _ _ 3). by apply Hno. }
    assert (Hw : ∀ P : hact → Prop, (∀ d a s', hlstep (HL h0 AGone [] 0 d [Some []] [] [] [] true [] []) a s' → ¬ P a.2) → weakly_fair hlstep (is_act P) x).
    { intros P Ha. apply weak_impossible. intros n. exists (max n 3). split; [lia|]. apply Hno; [done|lia]. }
    constructor; [apply Hs|apply Hs|apply Hs|apply Hs|apply Hs|intros i; apply Hs|apply Hw|apply Hw| |apply Hw].
    9: { apply weak_happens. intros n. exists (3 + n)%nat. split; [lia|]. unfold happens. change (x_act x (3 + n)%nat) with (f (3 + n)%nat (x_at x (3 + n)%nat)).1.
      destruct (Hinv (3 + n)%nat ltac:(lia)) as [E|E]; rewrite E; cbn [f l_deb s3 s4 fst snd Nat.add]; eexists; (split; [reflexivity|done]). }
    all: intros d [t a] s' Hst'; apply Q in Hst'; destruct a; cbn in *; try done; by intros [].
  - intros n ([t a]&Ha&Hp). change (x_act x n) with (f n (x_at x n)).1 in Ha. destruct n as [|[|[|n]]]; cbn [f fst] in Ha; try (injection Ha as <- <-; done).
    destruct (l_deb _); injection Ha as <- <-; done.
Qed.
