(** * Proofs: what a StatsD server shows for a gauge given any finite values *)
From Coq Require Import Reals Lra.
From Verif Require Import SJson PJson MNum PNum SServer PStatsd PStatsd2 PWriter PStatsdLoop PStatsd3 PShort PServer PServer2 PStatsdEx.
Local Open Scope Z_scope.

Lemma nearest_plain num den v : nearest false num den = Some v → ¬ below_zero v.
Proof.
  unfold nearest. destruct (num =? 0); [by intros [= <-]|]. destruct (if _ =? 2 ^ 53 then _ else _) as [m k]. destruct (971 <? k); [done|].
  by destruct m; intros [= <-].
Qed.
Lemma gauge_signed o v : short_codec (o_short o) → valid_binary 53 1024 v = true → below_zero v → signed (gauge_text o v) = true.
Proof.
  intros Hs Hv Hp. unfold gauge_text. destruct (_ && _).
  - destruct (Hs v Hv) as [[[n d] Hr] P]; [by destruct v|]. destruct (o_short o v) as [|c t]; [done|].
    cbn [signed]. destruct (decide (c = "-"%char)) as [->|Hc]; [done|]. exfalso.
    cbn [read_num] in Hr. destruct (ascii_dec c "-"%char) as [|_]; [done|].
    destruct (read_digits_parse false _ _ _ Hr) as (_ & _ & Q). change (parse_float (String c t) = nearest false n d) in Q.
    rewrite P in Q. symmetry in Q. by apply nearest_plain in Q.
  - destruct v as [s| | |s m e]; try done; cbn in Hp; subst s; cbn [fmt_fixed]; done.
Qed.
Lemma gauge_fold o (Hs : short_codec (o_short o)) (neg : list f64) : ∀ g x e, Forall (λ v : f64, valid_binary 53 1024 v = true ∧ below_zero v) neg → 0 < g.2 →
  (Rabs (IZR g.1 / IZR g.2 - x) <= e)%R →
  let r := foldl gauge_step g (map (gauge_text o) neg) in
  0 < r.2 ∧ (Rabs (IZR r.1 / IZR r.2 - (x + f_sum neg)) <= e + 0.005 * INR (length neg))%R.
Proof.
  induction neg as [|v neg IH]; intros g x e Hn Hg He r.
  - split; [done|]. unfold r. cbn [map foldl length f_sum fold_right INR]. unfold f_sum. cbn. replace (x + 0)%R with x by lra. replace (e + 0.005 * 0)%R with e by lra. done.
  - apply Forall_cons in Hn as [[Hv Hb] Hn]. unfold r. cbn [map foldl].
    destruct (thm_gauge_text_all o v Hs Hv) as (y & (n & d & Hr & Hd & ->) & Hy); [by destruct v|].
    assert (gauge_step g (gauge_text o v) = add_frac g (n, d)) as -> by (unfold gauge_step; by rewrite Hr, gauge_signed).
    assert (0 < (add_frac g (n, d)).2) as Hg' by (cbn; lia).
    assert (IZR (add_frac g (n, d)).1 / IZR (add_frac g (n, d)).2 = IZR g.1 / IZR g.2 + IZR n / IZR d)%R as Eg.
    { cbn. rewrite plus_IZR, !mult_IZR. field. split; apply not_0_IZR; lia. }
    destruct (IH (add_frac g (n, d)) (x + fval v)%R (e + 0.005)%R Hn Hg') as [H1 H2].
    { rewrite Eg. replace (IZR g.1 / IZR g.2 + IZR n / IZR d - (x + fval v))%R with ((IZR g.1 / IZR g.2 - x) + (IZR n / IZR d - fval v))%R by lra.
      eapply Rle_trans; [apply Rabs_triang|]. lra. }
    split; [done|]. cbn zeta in H2. change (f_sum (v :: neg)) with (fval v + f_sum neg)%R.
    change (length (v :: neg)) with (S (length neg)). rewrite S_INR.
    replace (x + (fval v + f_sum neg))%R with (x + fval v + f_sum neg)%R by lra.
    replace (e + 0.005 * (INR (length neg) + 1))%R with (e + 0.005 + 0.005 * INR (length neg))%R by lra. done.
Qed.
Lemma gauge_values o name l sent : clean o → all_fit o l → packed sent "" (sendable o l) →
  gauge name sent = foldl gauge_step (0, 1) (map (gauge_text o) (gauged o name l)).
Proof.
  intros Hc Hf Hp. unfold gauge, values. rewrite (server_gets o l sent) by done.
  change (omap _ (emits o l)) with (pick "g" name (emits o l)). by rewrite gauges_emits.
Qed.
Lemma thm_gauge_after o h s name pre v (neg : list f64) : clean o → short_codec (o_short o) → all_fit o (sop_cmds h) →
  sd_run o sd0 (h ++ [DoFlush]) = Ok s →
  gauged o name (sop_cmds h) = pre ++ v :: neg → valid_binary 53 1024 v = true → unsigned v →
  Forall (λ v : f64, valid_binary 53 1024 v = true ∧ below_zero v) neg →
  ∃ n d, gauge name (sd_sent s) = (n, d) ∧ 0 < d ∧ (Rabs (IZR n / IZR d - (fval v + f_sum neg)) <= 0.005 * INR (S (length neg)))%R.
Proof.
  intros Hc Hs Hf Hr Hg Hv Hu Hn. rewrite (gauge_values o name (sop_cmds h)) by (done || by apply flushed_all).
  rewrite Hg, map_app, foldl_app. cbn [map foldl].
  destruct (thm_gauge_text_all o v Hs Hv) as (x & (n & d & Hq & Hd & ->) & He); [by destruct v|].
  set (g0 := foldl _ _ (map _ pre)).
  assert (gauge_step g0 (gauge_text o v) = (n, d)) as ->.
  { unfold gauge_step. rewrite Hq. by rewrite (gauge_unsigned o v (IZR n / IZR d)%R Hs Hv Hu) by (by exists n, d). }
  destruct (gauge_fold o Hs neg (n, d) (fval v) 0.005%R Hn Hd He) as [H1 H2]. cbn zeta in *.
  destruct (foldl gauge_step (n, d) (map (gauge_text o) neg)) as [n' d']. exists n', d'. split; [done|]. split; [done|]. rewrite S_INR. cbn [fst snd] in H2. lra.
Qed.
Lemma thm_gauge_below o h s name : clean o → short_codec (o_short o) → all_fit o (sop_cmds h) →
  sd_run o sd0 (h ++ [DoFlush]) = Ok s → let vs := gauged o name (sop_cmds h) in
  Forall (λ v : f64, valid_binary 53 1024 v = true ∧ below_zero v) vs →
  ∃ n d, gauge name (sd_sent s) = (n, d) ∧ 0 < d ∧ (Rabs (IZR n / IZR d - f_sum vs) <= 0.005 * INR (length vs))%R.
Proof.
  intros Hc Hs Hf Hr vs Hn. rewrite (gauge_values o name (sop_cmds h)) by (done || by apply flushed_all). fold vs.
  destruct (gauge_fold o Hs vs (0, 1) 0%R 0%R Hn ltac:(done)) as [H1 H2].
  { cbn. replace (0 / 1 - 0)%R with 0%R by lra. rewrite Rabs_R0. lra. }
  cbn zeta in *. destruct (foldl gauge_step (0, 1) (map (gauge_text o) vs)) as [n' d']. exists n', d'. split; [done|]. split; [done|].
  cbn [fst snd] in H2. replace (0 + f_sum vs)%R with (f_sum vs) in H2 by lra. lra.
Qed.
