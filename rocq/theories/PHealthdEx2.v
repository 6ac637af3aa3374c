(** * Concrete executions of healthd's aggregation, part 2: an interval that
    expires after everything reported for it was merged *)
From Verif Require Import SHealthd2 PHealthd PHealthdEx.

Definition x_late : list eop :=
  x_good ++ [EPurge (60 + 6 * minute); EResp (xr "a" "i" [xd (6 * minute) 7 2 0]); ERecalc].

Lemma x_late_trace : ∃ o1 o2 now o3, trace x_late ["a"; "b"] =
  [HResp (xr "a" "i" [xd 60 4 10 0]) 1000 1001; HResp (xr "b" "j" [xd 60 9 5 0; xd 120 2 1 0]) 1000 1001; HResp (xr "c" "k" []) 1000 1001; HRecalc o1;
   HResp (xr "a" "i" [xd 60 4 10 0; xd 120 3 2 0]) 1000 1001; HResp (xr "b" "j" [xd 60 11 6 0; xd 120 2 1 0]) 1000 1001; HRecalc o2;
   HPurge now; HResp (xr "a" "i" [xd (6 * minute) 7 2 0]) 1000 1001; HRecalc o3] ∧
  now (60, 0%N, "i", "a") = 60 + 6 * minute.
Proof. eexists _, _, _, _. split; [vm_compute; reflexivity|]. vm_compute. reflexivity. Qed.

Lemma never_free (tr : list hop) k : Forall (λ op, ¬ is_purge op) tr → never_expires tr k.
Proof.
  intros H tr1 now tr2 key -> _. apply Forall_app in H as [_ H]. inversion H as [|? ? Hx]; subst. by destruct Hx.
Qed.

Lemma x_late_settled : expires_settled (trace x_late ["a"; "b"]) (60, 0%N) ∧ ¬ never_expires (trace x_late ["a"; "b"]) (60, 0%N).
Proof.
  destruct x_late_trace as (o1 & o2 & now & o3 & -> & Hn). split.
  - right. eexists [_; _; _; _; _; _], o2, [_; _; _]. split; [reflexivity|]. split.
    + apply never_free. repeat constructor; intros [].
    + intros key d (r & t1 & t2 & Hr & _ & Hd).
      apply elem_of_cons in Hr as [Hr|Hr]; [done|]. apply elem_of_cons in Hr as [Hr|Hr].
      * injection Hr as -> _ _. unfold reports_at in Hd. apply elem_of_list_omap in Hd as (x & Hx & Hd).
        cbn in Hx. apply elem_of_list_singleton in Hx as ->. unfold xd in Hd. case_decide as E; [|done].
        intros Hk. rewrite <-E in Hk. by vm_compute in Hk.
      * apply elem_of_list_singleton in Hr. done.
  - intros H. eapply (H [_; _; _; _; _; _; _] now [_; _] (60, 0%N, "i", "a")); [reflexivity|done|].
    unfold expires. rewrite Hn. vm_compute. done.
Qed.
Lemma x_late_shown :
  shown (final x_good ["a"; "b"]) = [((60, 0%N), 16); ((120, 0%N), 3)] ∧
  shown (final x_late ["a"; "b"]) = [((60, 0%N), 16); ((120, 0%N), 3); ((6 * minute, 0%N), 2)] ∧
  map fst (map_to_list (hd_host (final x_late ["a"; "b"]))) = [(6 * minute, 0%N, "i", "a")].
Proof. split; [by vm_compute|]. split; by vm_compute. Qed.
