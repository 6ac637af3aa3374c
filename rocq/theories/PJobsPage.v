(** * Exactly when the jobs page hides the jobs *)
From Verif Require Import SWire STop PApi PWire2 PWireEx.

Lemma enc_ajob_iff ff j : is_Some (enc_ajob ff j) ↔ ffinite (aj_ss j) = true ∧ ffinite (aj_avg j) = true ∧ ffinite (aj_stddev j) = true.
Proof.
  unfold enc_ajob, enc_float. destruct (ffinite (aj_ss j)), (ffinite (aj_avg j)), (ffinite (aj_stddev j)); cbn [bind];
    (split; [intros [? ?]|intros (? & ? & ?)]; try done; by eexists).
Qed.
Lemma thm_jobs_hidden_iff ff msg inst dur rows :
  (render msg (enc_api_jobs ff inst dur rows)).1 = 500 ↔
  ∃ l j, rows = Some l ∧ j ∈ l ∧ (ffinite (aj_ss j) = false ∨ ffinite (aj_avg j) = false ∨ ffinite (aj_stddev j) = false).
Proof.
  unfold enc_api_jobs. destruct rows as [l|]; [|cbn; split; [done|by intros (? & ? & [=] & _)]].
  assert (Hi := all_some_iff (enc_ajob ff) l). destruct (all_some (enc_ajob ff) l) as [js|]; cbn [bind render fst].
  - split; [done|]. intros (l' & j & [= <-] & Hj & H). assert (Forall (λ x, is_Some (enc_ajob ff x)) l) as Hf by (apply Hi; by eexists).
    rewrite Forall_forall in Hf. specialize (Hf j Hj). apply enc_ajob_iff in Hf as (? & ? & ?). destruct H as [?|[?|?]]; congruence.
  - split; [intros _|done]. assert (¬ Forall (λ x, is_Some (enc_ajob ff x)) l) as Hf by (intros [? ?]%Hi; done).
    apply not_Forall_Exists in Hf; [|intros x; destruct (enc_ajob ff x); [left; by eexists|right; by intros [? ?]]].
    apply Exists_exists in Hf as (j & Hj & Hn). cbn in Hn. rewrite enc_ajob_iff in Hn. exists l, j. split; [done|]. split; [done|].
    destruct (ffinite (aj_ss j)), (ffinite (aj_avg j)), (ffinite (aj_stddev j)); auto. exfalso. by apply Hn.
Qed.
(** the three messages encoding/json has for such a number *)
Lemma thm_hidden_page ff v inst dur rows : v ∈ ["NaN"; "+Inf"; "-Inf"] →
  let page := render ("json: unsupported value: " +:+ v) (enc_api_jobs ff inst dur rows) in
  page.1 = 500 → ∀ x now, top_jobs_event x page.2 now = TResponse [] now.
Proof.
  intros Hv page. unfold page. destruct (enc_api_jobs ff inst dur rows) as [d|]; [done|]. intros _ x now.
  apply elem_of_cons in Hv as [-> |Hv]; [by vm_compute|]. apply elem_of_cons in Hv as [-> |Hv]; [by vm_compute|].
  apply elem_of_list_singleton in Hv as ->. by vm_compute.
Qed.
Lemma thm_jobs_hidden_exactly ff v inst dur rows : v ∈ ["NaN"; "+Inf"; "-Inf"] →
  let page := render ("json: unsupported value: " +:+ v) (enc_api_jobs ff inst dur rows) in
  (page.1 = 500 ↔ ∃ l j, rows = Some l ∧ j ∈ l ∧ (ffinite (aj_ss j) = false ∨ ffinite (aj_avg j) = false ∨ ffinite (aj_stddev j) = false)) ∧
  (page.1 = 500 → ∀ x now, top_jobs_event x page.2 now = TResponse [] now).
Proof. intros Hv. cbn zeta. split; [apply thm_jobs_hidden_iff|by apply thm_hidden_page]. Qed.
