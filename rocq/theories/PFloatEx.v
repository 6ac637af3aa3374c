(** * Concrete floating-point cases *)
From Coq Require Import Reals Lra.
From Flocq Require Import Core.
From Verif Require Import SFloat2 SFloat3 PFloat PFloat2 PFloat3 PFloat4.

Definition c60_job : jobagg := JobAgg amaps0 (Timer 3 15 (fofZ 101) 2 9) 3 0 0 0 0.
Lemma c60_facts :
  describes 0 c60_job [2; 4; 9]%Z ∧ mean [2; 4; 9]%Z = 5%R ∧ sample_stddev [2; 4; 9]%Z = R_sqrt.sqrt 13 ∧
  job_avg c60_job = fofZ 5 ∧ job_stddev c60_job = fsqrt (fofZ 13) ∧
  (Rabs (mean [2; 4; 9]%Z) <= 2 * sample_stddev [2; 4; 9]%Z)%R.
Proof.
  assert (mean [2; 4; 9]%Z = 5%R) as Hm by (unfold mean; change (zsum [2; 4; 9]%Z) with 15; change (zlength [2; 4; 9]%Z) with 3; lra).
  assert (sample_stddev [2; 4; 9]%Z = R_sqrt.sqrt 13) as Hs.
  { rewrite stddev_formula by (unfold zlength; simpl; lia). f_equal. change (vnum [2; 4; 9]%Z) with 78. change (zlength [2; 4; 9]%Z) with 3. change (3 * (3 - 1)) with 6. lra. }
  split; [|split; [done|split; [done|split; [by vm_compute|split; [by vm_compute|]]]]].
  - split; [done|]. split; [done|]. assert (fval (fofZ 101) = 101)%R as Hf by (apply frepr_fval, frepr_small; lia).
    split; [|split; [|split; [|split]]]; try done.
    cbn [c60_job j_timer t_ss]. rewrite Hf. apply within_refl.
  - rewrite Hm, Hs. rewrite Rabs_pos_eq by lra.
    replace 5%R with (2 * R_sqrt.sqrt (25 / 4))%R.
    + apply Rmult_le_compat_l; [lra|]. apply sqrt_le_1_alt. lra.
    + replace (25 / 4)%R with ((5 / 2) * (5 / 2))%R by field. rewrite sqrt_square by lra. field.
Qed.

Definition c84_tr : list lop := [LCmd "j" (WTiming "t" 5); LCmd "j" (WGauge "g" (fofZ (-7)))].
Lemma c84_modest job e : LCmd job e ∈ c84_tr → modest e.
Proof.
  unfold c84_tr. rewrite !elem_of_cons, elem_of_nil. intros [[= -> ->]|[[= -> ->]|[]]]; [done|].
  split; [done|]. split; [done|]. change (Rabs (fval (fofZ (-7))) <= IZR (10 ^ 100))%R.
  rewrite (frepr_fval (fofZ (-7)) (IZR (-7))) by (apply frepr_small; lia).
  rewrite <- abs_IZR. apply IZR_le. by vm_compute.
Qed.
