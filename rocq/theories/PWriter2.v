(** * Exactly when an emission is one line, and which files are taken for Go's *)
From Verif Require Import SWriter PWriter SStack PApi PStack.

Lemma newlines_nonneg s : 0 ≤ newlines s.
Proof. unfold newlines. lia. Qed.
Lemma total_newlines_nonneg l : 0 ≤ total_newlines l.
Proof. unfold total_newlines. induction l as [|x l IH]; cbn; [lia|]. pose proof (newlines_nonneg x). lia. Qed.
Lemma total_newlines_zero l : total_newlines l = 0 ↔ ∀ x, x ∈ l → newlines x = 0.
Proof.
  induction l as [|x l IH]; [split; [intros _ x H; by apply elem_of_nil in H|done]|].
  assert (total_newlines (x :: l) = newlines x + total_newlines l) as -> by done.
  pose proof (newlines_nonneg x). pose proof (total_newlines_nonneg l). split.
  - intros E y [-> | Hy]%elem_of_cons; [lia|]. apply IH; [lia|done].
  - intros H1. rewrite (H1 x ltac:(left)). cut (total_newlines l = 0); [lia|]. apply IH. intros y Hy. apply H1. by right.
Qed.
Lemma kvs_newlines_zero kvs : 0 ≤ kvs_newlines kvs ∧
  (kvs_newlines kvs = 0 ↔ ∀ m k v, kvs = Some m → m !! k = Some v → newlines k = 0 ∧ newlines v = 0).
Proof.
  destruct kvs as [m|]; cbn [kvs_newlines]; [|split; [done|split; [|done]]; intros _ m k v [=]].
  apply (map_fold_ind (λ n m, 0 ≤ n ∧ (n = 0 ↔ ∀ m' k v, Some m = Some m' → m' !! k = Some v → newlines k = 0 ∧ newlines v = 0))).
  - split; [done|]. split; [|done]. intros _ m' k v [= <-] H. by rewrite lookup_empty in H.
  - intros k v m0 n Hk [Hn IH]. pose proof (newlines_nonneg k). pose proof (newlines_nonneg v). split; [lia|]. split.
    + intros E m' k' v' [= <-] H'. apply lookup_insert_Some in H' as [[-> ->]|[_ H']]; [lia|].
      assert (n = 0) as E0 by lia. by apply (proj1 IH E0 m0).
    + intros Ha. destruct (Ha _ k v eq_refl ltac:(apply lookup_insert)) as [-> ->]. cut (n = 0); [lia|]. apply IH.
      intros m' k' v' [= <-] H'. eapply Ha; [done|]. rewrite lookup_insert_ne; [done|]. intros ->. by rewrite Hk in H'.
Qed.
Lemma thm_one_line_iff srt g ts job e kvs order :
  correct_sort srt → (∀ m, kvs = Some m → order ≡ₚ map fst (map_to_list m)) →
  (newlines (writer_line srt g ts job e kvs order) = 1 ↔
     newlines ts = 0 ∧ newlines job = 0 ∧ (∀ x, x ∈ emission_texts g e → newlines x = 0) ∧
     ∀ m k v, kvs = Some m → m !! k = Some v → newlines k = 0 ∧ newlines v = 0).
Proof.
  intros Hs Ho. rewrite (thm_newlines srt g ts job e kvs order Hs Ho). rewrite <-total_newlines_zero.
  destruct (kvs_newlines_zero kvs) as [Hn <-]. pose proof (newlines_nonneg ts). pose proof (newlines_nonneg job).
  pose proof (total_newlines_nonneg (emission_texts g e)). lia.
Qed.

Lemma app_empty_r s : s +:+ "" = s.
Proof. induction s as [|x s IH]; [done|]. change (String x (s +:+ "") = String x s). by rewrite IH. Qed.
Lemma app_same_l a : ∀ b c, a +:+ b = a +:+ c → b = c.
Proof. induction a as [|x a IH]; intros b c H; [done|]. change (String x (a +:+ b) = String x (a +:+ c)) in H. injection H as H. auto. Qed.
Lemma thm_system_exactly rt file :
  (is_system_package rt file = true ∧ ¬ inside (rt_goroot rt) file) ↔
  (file = rt_goroot rt ∨ ∃ c rest, file = rt_goroot rt +:+ String c rest ∧ c ≠ "/"%char).
Proof.
  unfold is_system_package. rewrite has_prefix_spec. split.
  - intros [[r ->] Hi]. destruct r as [|c r]; [left; apply app_empty_r|].
    right. exists c, r. split; [done|]. intros ->. apply Hi. by exists r.
  - intros [-> | (c & r & -> & Hc)].
    + split; [exists ""; by rewrite app_empty_r|]. intros [r E]. rewrite <-(app_empty_r (rt_goroot rt)) in E at 1.
      by apply app_same_l in E.
    + split; [by eexists|]. intros [r' E]. apply app_same_l in E. by injection E as E1 _.
Qed.
