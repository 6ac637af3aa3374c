(** * Concrete executions of the StatsD sink with its ticker (C132) *)
From Verif Require Import SLive11 PFair PStatsdLoop PLiveTicker.

Section Ex.
  Context (o : opts).
  (** nobody calls; flushes for ever *)
  Local Definition c_at (r : nat) : kst :=
    match r with 0 => kst0 | 1 => KSt lst0 true TkRecv true | 2 => KSt lst0 false TkSend true | _ => KSt (LSt [SFlush] LRun sd0 [] []) false TkRecv true end%nat.
  Local Definition c_act (r : nat) : kact := match r with 0 => KFire | 1 => KRecv | 2 => KSend | _ => KSink ATake end%nat.
  Local Fixpoint r4 (n : nat) : nat := match n with O => O | S n => match r4 n with 0 => 1 | 1 => 2 | 2 => 3 | _ => 0 end end%nat.
  Local Definition c_x : exec kst kact := Exec (λ n, c_at (r4 n)) (λ n, Some (c_act (r4 n))).
  Local Lemma r4_in n r : (r < 4)%nat → r4 (r + n * 4) = r.
  Proof using.
    assert (H : r4 (n * 4) = 0%nat) by (induction n as [|n IH]; [done|]; cbn; by rewrite IH).
    intros Hr. do 4 (destruct r as [|r]; [cbn; by rewrite ?H|]). lia.
  Qed.
  Lemma flushes_example : ∃ x, ticker_exec o x ∧ ticker_fair o x ∧ never stop_by (sink_view x) ∧ forever (happens is_tick (sink_view x)).
  Proof.
    assert (Hag : ∀ r, (r < 4)%nat → ∀ n, ∃ m, (n ≤ m)%nat ∧ x_act c_x m = Some (c_act r)).
    { intros r Hr n. exists (r + n * 4)%nat. split; [lia|]. cbn. by rewrite r4_in. }
    assert (Hw : ∀ (P : kact → Prop) r, (r < 4)%nat → P (c_act r) → ∀ n, ∃ m, (n ≤ m)%nat ∧ happens P c_x m).
    { intros P r Hr Hp n. destruct (Hag r Hr n) as (m&Hm&E). exists m. split; [done|]. by exists (c_act r). }
    exists c_x. split; [|split; [|split]].
    - split; [|done]. intros n. cbn. destruct (r4 n) as [|[|[|r]]]; cbn.
      + constructor.
      + constructor.
      + constructor. apply (St_tick o lst0). done.
      + apply Ks_sink; [done|]. apply (St_take_flush o [] sd0).
    - constructor.
      + apply weak_happens. apply (Hw _ 3%nat); [lia|]. by exists ATake.
      + apply weak_impossible. intros n. exists n. split; [done|]. intros (a&s'&->&St). cbn in St. destruct (r4 n) as [|[|[|r]]]; by inversion St.
      + apply weak_happens. by apply (Hw _ 0%nat); [lia|].
      + apply weak_happens. by apply (Hw _ 1%nat); [lia|].
      + apply weak_happens. by apply (Hw _ 2%nat); [lia|].
      + apply strong_happens. by apply (Hw _ 2%nat); [lia|].
    - intros n (a&Ha&Hs). cbn in Ha. destruct (r4 n) as [|[|[|r]]]; by simplify_eq/=.
    - intros n. destruct (Hag 2%nat ltac:(lia) n) as (m&Hm&E). exists m. split; [done|]. exists ATick. split; [|done]. cbn. cbn in E. by injection E as ->.
  Qed.

  (** a Stop while the queue is empty *)
  Local Definition g1 (n : nat) (s : kst) : option kact * kst :=
    match n with
    | 0 => (Some (KSink (AStopCall 2)), KSt (LSt [SStop] LRun sd0 [] [2%nat]) false TkRecv true)
    | 1 => (Some (KSink ATake), KSt (LSt [] LStopSend sd0 [] [2%nat]) false TkRecv true)
    | 2 => (Some (KSink (AStopDone 2)), KSt (LSt [] LDone sd0 [] []) false TkRecv true)
    | 3 => (Some KOff, KSt (LSt [] LDone sd0 [] []) false TkRecv false)
    | _ => (None, s)
    end%nat.
  Lemma stop_example : ∃ x, ticker_exec o x ∧ ticker_fair o x ∧ x_act x 2%nat = Some (KSink (AStopDone 2)) ∧ l_loop (k_l (x_at x 3%nat)) = LDone ∧
    ∀ m, (4 ≤ m)%nat → k_go (x_at x m) = TkRecv.
  Proof.
    set (x := run g1 kst0).
    assert (Hinv : ∀ n, (4 ≤ n)%nat → x_at x n = KSt (LSt [] LDone sd0 [] []) false TkRecv false).
    { apply (run_inv g1 kst0 (λ n s, s = KSt (LSt [] LDone sd0 [] []) false TkRecv false)); [done|]. intros n s Hn ->. by do 4 (destruct n as [|n]; [lia|]). }
    assert (Hno : ∀ P : kact → Prop, (∀ a, P a → (∃ b, a = KSink b ∧ internal b) ∨ match a with KSink _ => False | _ => True end) → ∀ n, (4 ≤ n)%nat → ¬ possible (kstep o) P (x_at x n)).
    { intros P HP n Hn (a&s'&Hp&St). rewrite (Hinv n Hn) in St. destruct (HP a Hp) as [(b&->&Hi)|Hd].
      - inversion St as [? ? ? ? ? ? _ Hl| | | |]; subst. inversion Hl; subst; done.
      - destruct a; try done; by inversion St. }
    exists x. split.
    { split; [|done]. apply run_exec. intros [|[|[|[|n]]]].
      - apply Ks_sink; [done|]. apply (St_stop_call o lst0); [done|apply not_elem_of_nil..].
      - apply Ks_sink; [done|]. constructor.
      - apply Ks_sink; [done|]. apply (St_stop_done o [] sd0 [] [2%nat] 2). by left.
      - by constructor.
      - done. }
    split; [|split; [done|split; [done|]]].
    - constructor.
      1-5: apply weak_impossible; intros n; exists (max n 4); (split; [lia|]); apply Hno; [|lia].
      + by left.
      + intros a ->. by right.
      + intros a ->. by right.
      + intros a ->. by right.
      + intros a ->. by right.
      + apply (strong_impossible _ _ _ 4), Hno. intros a ->. by right.
    - intros m Hm. by rewrite (Hinv m Hm).
  Qed.

  (** a Stop while the goroutine holds a tick, then the queue is filled *)
  Local Definition g2 (n : nat) (s : kst) : option kact * kst :=
    match n with
    | 0 => (Some KFire, KSt lst0 true TkRecv true)
    | 1 => (Some KRecv, KSt lst0 false TkSend true)
    | 2 => (Some (KSink (AStopCall 2)), KSt (LSt [SStop] LRun sd0 [] [2%nat]) false TkSend true)
    | 3 => (Some (KSink ATake), KSt (LSt [] LStopSend sd0 [] [2%nat]) false TkSend true)
    | 4 => (Some (KSink (AStopDone 2)), KSt (LSt [] LDone sd0 [] []) false TkSend true)
    | 5 => (Some KOff, KSt (LSt [] LDone sd0 [] []) false TkSend false)
    | _ => if (Z.of_nat (length (l_q (k_l s))) <? cmdChanBuffSize)%Z
           then (Some (KSink (AEmit (CEvent "j" "e"))), KSt (set_q (k_l s) (l_q (k_l s) ++ [SMetric (CEvent "j" "e")])) false TkSend false) else (None, s)
    end%nat.
  Lemma full_example : ∃ x m, ticker_exec o x ∧ ticker_fair o x ∧ x_act x 4%nat = Some (KSink (AStopDone 2)) ∧ l_loop (k_l (x_at x 5%nat)) = LDone ∧
    ∀ j, (m ≤ j)%nat → k_go (x_at x j) = TkSend ∧ ¬ room (k_l (x_at x j)).
  Proof.
    set (x := run g2 kst0).
    assert (Hinv : ∀ n, (6 ≤ n)%nat → ∃ q, x_at x n = KSt (LSt q LDone sd0 [] []) false TkSend false ∧ Z.of_nat (length q) = Z.min (Z.of_nat n - 6) cmdChanBuffSize).
    { apply (run_inv g2 kst0 (λ n s, ∃ q, s = KSt (LSt q LDone sd0 [] []) false TkSend false ∧ Z.of_nat (length q) = Z.min (Z.of_nat n - 6) cmdChanBuffSize)); [by exists []|].
      intros n s Hn (q&->&Hq). do 6 (destruct n as [|n]; [lia|]). cbn [g2 k_l l_q].
      destruct (Z.ltb_spec (Z.of_nat (length q)) cmdChanBuffSize); [exists (q ++ [SMetric (CEvent "j" "e")])|exists q]; (split; [done|]); rewrite ?app_length; cbn [length]; unfold cmdChanBuffSize in *; lia. }
    destruct (Z_of_nat_complete cmdChanBuffSize ltac:(by vm_compute)) as [N EN].
    assert (Hfull : ∀ n, (6 + N ≤ n)%nat → ∃ q, x_at x n = KSt (LSt q LDone sd0 [] []) false TkSend false ∧ ¬ room (LSt q LDone sd0 [] [])).
    { intros n Hn. destruct (Hinv n ltac:(lia)) as (q&E&Hq). exists q. split; [exact E|]. unfold room. cbn [l_q]. lia. }
    assert (Hno : ∀ P : kact → Prop, (∀ a, P a → (∃ b, a = KSink b ∧ internal b) ∨ match a with KSink _ => False | _ => True end) → ∀ n, (6 + N ≤ n)%nat → ¬ possible (kstep o) P (x_at x n)).
    { intros P HP n Hn (a&s'&Hp&St). destruct (Hfull n Hn) as (q&E&Hr). rewrite E in St. destruct (HP a Hp) as [(b&->&Hi)|Hd].
      - inversion St as [? ? ? ? ? ? _ Hl| | | |]; subst. inversion Hl; subst; done.
      - destruct a; try done; inversion St as [| | |? ? ? ? Hl|]; subst. inversion Hl; subst. by apply Hr. }
    exists x, (6 + N)%nat. split.
    { split; [|done]. apply run_exec. intros [|[|[|[|[|[|n]]]]]].
      - constructor.
      - constructor.
      - apply Ks_sink; [done|]. apply (St_stop_call o lst0); [done|apply not_elem_of_nil..].
      - apply Ks_sink; [done|]. constructor.
      - apply Ks_sink; [done|]. apply (St_stop_done o [] sd0 [] [2%nat] 2). by left.
      - by constructor.
      - change (run_at g2 kst0 (S (S (S (S (S (S n))))))) with (x_at x (S (S (S (S (S (S n))))))). destruct (Hinv (S (S (S (S (S (S n)))))) ltac:(lia)) as (q&->&_). cbn [g2 k_l l_q].
        destruct (Z.ltb_spec (Z.of_nat (length q)) cmdChanBuffSize); [|done]. apply Ks_sink; [done|]. by apply (St_emit o (LSt q LDone sd0 [] [])). }
    split; [|split; [done|split; [done|]]].
    - constructor.
      1-5: apply weak_impossible; intros n; exists (max n (6 + N)); (split; [lia|]); apply Hno; [|lia].
      + by left.
      + intros a ->. by right.
      + intros a ->. by right.
      + intros a ->. by right.
      + intros a ->. by right.
      + apply (strong_impossible _ _ _ (6 + N)), Hno. intros a ->. by right.
    - intros j Hj. destruct (Hfull j Hj) as (q&->&Hr). done.
  Qed.
End Ex.
