(** * One process, two answers, taken in either order *)
From Verif Require Import PApi SSystem PContent PContent2 PAgg PAgg2 PHealthd PNum2 PWire PWire2 PWireEx PHealthEx PHealthdEx PSystem PSystemEx.

Definition z_procs : list sev :=
  [SProc 0 clock (OpCmd (CEvent "job" "e")); SProc 0 clock OpRead;
   SProc 0 (clock + 5) (OpCmd (CEvent "k" "e")); SProc 0 (clock + minute) OpRead].
(** answers [a], then [b] are taken, each followed by a recalculation *)
Definition z_state1 (a : nat) : MHealthd.hd := final [EResp (y_resp 0 a)] ["h:1"].
Definition z_ops1 (a : nat) : list hop := [HResp (y_resp 0 a) 1000 1001; HRecalc (the_order (z_state1 a))].
Definition z_end1 (a : nat) : MHealthd.hd := final [EResp (y_resp 0 a); ERecalc] ["h:1"].
Definition z_state2 (a b : nat) : MHealthd.hd := final [EResp (y_resp 0 a); ERecalc; EResp (y_resp 0 b)] ["h:1"].
Definition z_ops2 (a b : nat) : list hop := z_ops1 a ++ [HResp (y_resp 0 b) 1000 1001; HRecalc (the_order (z_state2 a b))].
Definition z_end2 (a b : nat) : MHealthd.hd := final [EResp (y_resp 0 a); ERecalc; EResp (y_resp 0 b); ERecalc] ["h:1"].
Definition z_tr1 (a : nat) : list sev := z_procs ++ [SRecv 0 a; SRecalc (the_order (z_state1 a))].
Definition z_tr2 (a b : nat) : list sev := [SRecv 0 b; SRecalc (the_order (z_state2 a b))].

Lemma z_hist i tr : (∀ j t o, SProc j t o ∉ tr) → hist i (z_procs ++ tr) = hist i z_procs.
Proof.
  intros H. unfold hist. rewrite omap_app. enough (omap (λ e, match e with SProc j t o => if decide (i = j) then Some (t, o) else None | _ => None end) tr = []) as ->.
  { by rewrite app_nil_r. }
  induction tr as [|e tr IH]; [done|]. cbn. assert (IH' := IH (λ j t o Hin, H j t o (elem_of_list_further _ _ _ Hin))).
  destruct e; try exact IH'. destruct (H i0 t o). left.
Qed.
Lemma z_hist0 : hist 0 z_procs = hist 0 y_events.
Proof. by vm_compute. Qed.
Lemma z_histS i : hist (S i) z_procs = [].
Proof. by vm_compute. Qed.
Lemma z_ok tr : (∀ j t o, SProc j t o ∉ tr) → procs_ok minute y_proc (z_procs ++ tr).
Proof.
  intros H. destruct y_procs as [H1 H2 H3 H4 H5 H6]. split; try done.
  - intros [|i]; rewrite z_hist by done; [rewrite z_hist0; apply H4|rewrite z_histS; constructor].
  - intros [|i]; rewrite z_hist by done; [rewrite z_hist0; apply H5|rewrite z_histS]. intros t o Hin. by apply elem_of_nil in Hin.
  - intros [|i] s; rewrite z_hist by done; [rewrite z_hist0; apply H6|rewrite z_histS]. done.
Qed.
Lemma z_few s tr : (∀ j t o, SProc j t o ∉ tr) → few_in_all minute s (z_procs ++ tr).
Proof.
  intros H L HL. assert (Hle : ∀ L, NoDup L → (0%nat ∉ L → zsum (map (λ i, Z.of_nat (length (cmds_in minute s (hist i (z_procs ++ tr))))) L) ≤ 0) ∧
    zsum (map (λ i, Z.of_nat (length (cmds_in minute s (hist i (z_procs ++ tr))))) L) ≤ 4).
  { clear L HL. induction L as [|i L IH]; intros HL; [split; cbn; lia|]. apply NoDup_cons in HL as [Hi HL]. specialize (IH HL) as [IH1 IH2].
    cbn [map]. unfold zsum in *. cbn [foldr]. rewrite z_hist by done. destruct i as [|i].
    - split; [intros Hn; destruct Hn; left|]. specialize (IH1 Hi).
      assert (length (cmds_in minute s (hist 0 z_procs)) ≤ length (hist 0 z_procs))%nat as Hl by apply omap_length_le.
      change (length (hist 0 z_procs)) with 4%nat in Hl. lia.
    - rewrite z_histS. split; [|exact IH2]. intros Hn. apply IH1. intros Hin. apply Hn. by right. }
  specialize (Hle L HL) as [_ Hle]. lia.
Qed.
Lemma z_sys1 a : a = 1%nat ∨ a = 3%nat → sys go_float minute y_proc 0 (z_tr1 a) (z_ops1 a).
Proof.
  intros Ha. unfold z_tr1, z_ops1. change [SRecv 0 a; SRecalc (the_order (z_state1 a))] with ([SRecv 0 a] ++ [SRecalc (the_order (z_state1 a))]).
  rewrite app_assoc. change [HResp (y_resp 0 a) 1000 1001; HRecalc (the_order (z_state1 a))] with ([HResp (y_resp 0 a) 1000 1001] ++ [HRecalc (the_order (z_state1 a))]).
  apply sys_recalc. assert (H := sys_nil go_float minute y_proc 0).
  apply (sys_proc _ _ _ _ _ _ 0 clock (OpCmd (CEvent "job" "e"))) in H. apply (sys_proc _ _ _ _ _ _ 0 clock OpRead) in H.
  apply (sys_proc _ _ _ _ _ _ 0 (clock + 5) (OpCmd (CEvent "k" "e"))) in H. apply (sys_proc _ _ _ _ _ _ 0 (clock + minute) OpRead) in H.
  destruct Ha as [->| ->].
  - apply (y_answer _ _ 0 1 clock) in H; [|by vm_compute..]. exact H.
  - apply (y_answer _ _ 0 3 (clock + minute)) in H; [|by vm_compute..]. exact H.
Qed.
Lemma z_sys2 a b : a = 1%nat ∨ a = 3%nat → b = 1%nat ∨ b = 3%nat → sys go_float minute y_proc 0 (z_tr1 a ++ z_tr2 a b) (z_ops2 a b).
Proof.
  intros Ha Hb. unfold z_tr2, z_ops2. assert (H := z_sys1 a Ha).
  change [SRecv 0 b; SRecalc (the_order (z_state2 a b))] with ([SRecv 0 b] ++ [SRecalc (the_order (z_state2 a b))]).
  change [HResp (y_resp 0 b) 1000 1001; HRecalc (the_order (z_state2 a b))] with ([HResp (y_resp 0 b) 1000 1001] ++ [HRecalc (the_order (z_state2 a b))]).
  rewrite !app_assoc. apply sys_recalc.
  assert (Hh : hist 0 (z_tr1 a) = hist 0 y_events).
  { unfold z_tr1. rewrite z_hist; [apply z_hist0|]. intros j t o Hin. repeat (apply elem_of_cons in Hin as [Hin|Hin]; [discriminate|]). by apply elem_of_nil in Hin. }
  destruct Hb as [->| ->].
  - apply (y_answer _ _ 0 1 clock) in H; [exact H|by rewrite Hh|by rewrite Hh|by vm_compute..].
  - apply (y_answer _ _ 0 3 (clock + minute)) in H; [exact H|by rewrite Hh|by rewrite Hh|by vm_compute..].
Qed.
Lemma grow l hosts e ops : hrun (hd_init hosts) ops (Ok (final l hosts)) → succeeds l hosts = true → succeeds (l ++ [e]) hosts = true →
  hrun (hd_init hosts) (ops ++ [eop_hop (final l hosts) e]) (Ok (final (l ++ [e]) hosts)).
Proof.
  intros Hr Hl He. apply hrun_snoc. exists (final l hosts). split; [done|].
  split; [destruct e; cbn; [done|done|apply the_order_ok]|].
  unfold succeeds, final in *. destruct (erun (hd_init hosts) l).2 as [s|] eqn:E; [|done].
  destruct (erun_app l [e] _ _ E) as [_ E2]. rewrite E2 in *. cbn in *. by destruct (hstep s (eop_hop s e)).
Qed.
Lemma z_run1 a : a = 1%nat ∨ a = 3%nat → hrun (hd_init ["h:1"]) (z_ops1 a) (Ok (z_end1 a)).
Proof.
  intros Ha. apply (grow [EResp (y_resp 0 a)] ["h:1"] ERecalc [HResp (y_resp 0 a) 1000 1001]).
  - apply (grow [] ["h:1"] (EResp (y_resp 0 a)) []); [constructor|done|]. destruct Ha as [->| ->]; by vm_compute.
  - destruct Ha as [->| ->]; by vm_compute.
  - destruct Ha as [->| ->]; by vm_compute.
Qed.
Lemma z_run2 a b : a = 1%nat ∨ a = 3%nat → b = 1%nat ∨ b = 3%nat → hrun (hd_init ["h:1"]) (z_ops2 a b) (Ok (z_end2 a b)).
Proof.
  intros Ha Hb. unfold z_ops2. change [HResp (y_resp 0 b) 1000 1001; HRecalc (the_order (z_state2 a b))] with ([HResp (y_resp 0 b) 1000 1001] ++ [HRecalc (the_order (z_state2 a b))]).
  rewrite app_assoc. apply (grow [EResp (y_resp 0 a); ERecalc; EResp (y_resp 0 b)] ["h:1"] ERecalc).
  - apply (grow [EResp (y_resp 0 a); ERecalc] ["h:1"] (EResp (y_resp 0 b))); [by apply z_run1| |];
      destruct Ha as [->| ->], Hb as [->| ->]; by vm_compute.
  - destruct Ha as [->| ->], Hb as [->| ->]; by vm_compute.
  - destruct Ha as [->| ->], Hb as [->| ->]; by vm_compute.
Qed.
Lemma z_kept a b : kept minute y_start (z_tr1 a ++ z_tr2 a b).
Proof. intros now key Hin _. exfalso. cbn in Hin. repeat (apply elem_of_cons in Hin as [Hin|Hin]; [discriminate|]). by apply elem_of_nil in Hin. Qed.
Lemma z_noproc a b j t o : SProc j t o ∉ [SRecv 0 a; SRecalc (the_order (z_state1 a))] ++ z_tr2 a b.
Proof. intros Hin. repeat (apply elem_of_cons in Hin as [Hin|Hin]; [discriminate|]). by apply elem_of_nil in Hin. Qed.
Lemma z_ok2 a b : procs_ok minute y_proc (z_tr1 a ++ z_tr2 a b).
Proof. unfold z_tr1. rewrite <- app_assoc. apply z_ok, z_noproc. Qed.
Lemma z_few2 a b : few_in_all minute y_start (z_tr1 a ++ z_tr2 a b).
Proof. unfold z_tr1. rewrite <- app_assoc. apply z_few, z_noproc. Qed.
Lemma z_order : in_order (z_tr1 1 ++ z_tr2 1 3).
Proof.
  intros i tr1 k tr2 k' E Hin.
  assert (Hall : ∀ k, SRecv i k ∈ z_tr1 1 ++ z_tr2 1 3 → k = 1%nat ∨ k = 3%nat).
  { clear. intros k Hin. unfold z_tr1, z_tr2, z_procs in Hin. cbn [app] in Hin.
    repeat (apply elem_of_cons in Hin as [Hin|Hin]; [first [discriminate|injection Hin as -> ->; auto]|]). by apply elem_of_nil in Hin. }
  unfold z_tr1, z_tr2, z_procs in E. cbn [app] in E.
  do 4 (destruct tr1 as [|? tr1]; [discriminate|]; cbn [app] in E; injection E as _ E).
  destruct tr1 as [|? tr1]; cbn [app] in E.
  { injection E as <- <- <-. destruct (Hall k') as [->| ->]; [|lia|lia].
    unfold z_tr1, z_tr2, z_procs. cbn [app]. do 5 right. exact Hin. }
  injection E as _ E. destruct tr1 as [|? tr1]; [discriminate|]; cbn [app] in E; injection E as _ E.
  destruct tr1 as [|? tr1]; cbn [app] in E.
  { injection E as <- <- <-. apply elem_of_list_singleton in Hin. discriminate. }
  injection E as _ E. destruct tr1 as [|? tr1]; [discriminate|]; cbn [app] in E. injection E as _ E. by destruct tr1.
Qed.
Definition z_shown (s : MHealthd.hd) : list (Z * N * Z) := map (λ p, (pa_time p, ctr_val (KTop (KEvents "e")) (pa_ia p))) (hd_pub s).
