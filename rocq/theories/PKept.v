(** * Exactly which maps a sink may keep *)
From Verif Require Import SHealth PHealth4 PHealthEx.

(** with one level the map handed out is that level's *)
Lemma merged_alone w st jb inst : levels w st jb inst = 1%nat →
  (merged_key_values w st jb inst).1 = w ∧
  ∃ l, (merged_key_values w st jb inst).2 = Some l ∧ (st_kvs st = Some l ∨ jb_kvs jb = Some l ∨ inst = Some l).
Proof.
  intros Hl. unfold merged_key_values, merged_key_values_ord, levels, nonempty in *.
  assert (He : ∀ r, kvs w r ≠ ∅ → ∃ l, r = Some l) by (intros [l|] H; [by eexists|done]).
  destruct (bool_decide_reflect (kvs w (jb_kvs jb) ≠ ∅)) as [H1|H1], (bool_decide_reflect (kvs w (st_kvs st) ≠ ∅)) as [H2|H2],
    (bool_decide_reflect (kvs w inst ≠ ∅)) as [H3|H3]; cbn in *; try lia; (split; [done|]).
  - destruct (He _ H1) as [l ->]. exists l. auto.
  - destruct (He _ H2) as [l ->]. exists l. auto.
  - destruct (He _ H3) as [l ->]. exists l. auto.
Qed.
Lemma map_set_other w l k v : kvs (map_set w l k v) (Some l) = <[k := v]> (kvs w (Some l)).
Proof. cbn. by rewrite lookup_insert. Qed.
Lemma differs (m : gmap string string) : <["k" := match m !! "k" with Some s => String "x" s | None => "" end]> m ≠ m.
Proof.
  intros E. assert (H := f_equal (λ x : gmap string string, x !! "k") E). cbn beta in H. rewrite lookup_insert in H.
  destruct (m !! "k") as [s|]; [|done]. injection H as H. clear -H. induction s as [|c s IH]; [done|]. injection H as Hc H. rewrite <-Hc in H. auto.
Qed.

Lemma thm_kept_exactly w a j inst jb st w1 cs :
  reachable w → emission a = Some (j, inst) → w_jobs w !! j = Some jb → w_streams w !! jb_stream jb = Some st →
  (∀ l, inst = Some l → l ∈ w_mine w) → api_step w a = Ok w1 → w_log w1 = w_log w ++ cs → cs ≠ [] →
  ((∀ h w2, api_run w1 h = Ok w2 → Forall (λ c, kvs w2 (c_kvs c) = c_view c) cs) ↔ levels w st jb inst ≠ 1%nat).
Proof.
  intros Hr He Hj Hs Hi Hw Hl Hne. split; [|intros Hlv h w2; by eapply thm_kept].
  intros Hk Hlv. rewrite (emission_open _ _ _ _ _ _ He Hj Hs) in Hw. injection Hw as <-.
  destruct (result_maps w a st jb j inst He) as (w0&Hm0&Hq0&Hwf0&Hk0&Hm&Hn&Hcs). specialize (Hcs _ Hl).
  assert (Hlv0 : levels w0 st jb inst = 1%nat) by (unfold levels; by rewrite !Hk0).
  destruct (merged_alone w0 st jb inst Hlv0) as (E1 & l & E2 & Hcase). rewrite E1, E2 in *.
  destruct (emission_quiet w a st jb) as [_ _ Qs Qj Qi _]. set (w1 := result_of w a st jb) in *.
  set (v := match kvs w1 (Some l) !! "k" with Some s => String "x" s | None => "" end).
  assert (∃ b, api_step w1 b = Ok (map_set w1 l "k" v)) as [b Hb].
  { destruct Hcase as [E|[E|E]].
    - exists (ApiStreamKv (jb_stream jb) "k" v). cbn. unfold stream_key_value. by rewrite Qs, Hs, E.
    - exists (ApiJobKv j "k" v). cbn. unfold job_key_value. by rewrite Qj, Hj, E.
    - exists (ApiMapSet l "k" v). cbn. rewrite bool_decide_true; [done|]. rewrite Qi. auto. }
  specialize (Hk [b] (map_set w1 l "k" v)). cbn in Hk. rewrite Hb in Hk. specialize (Hk eq_refl).
  destruct cs as [|c cs]; [done|]. apply Forall_cons in Hk as [Hk _]. apply Forall_cons in Hcs as [[Hc1 Hc2] _].
  rewrite Hc1, map_set_other, Hc2 in Hk. assert (kvs w0 (Some l) = kvs w1 (Some l)) as E by (cbn; by rewrite Hm).
  rewrite E in Hk. by apply differs in Hk.
Qed.
