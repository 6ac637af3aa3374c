(** * Proofs about executions without end *)
From Verif Require Import SFair.

Section Fair.
  Context {S A : Type} (step : S → A → S → Prop).
  Implicit Types (x : exec S A) (P : A → Prop) (I : S → Prop).

  (** ** strong fairness is the usual one *)
  Lemma strong_usual P x : strongly_fair step P x → forever (λ n, possible step P (x_at x n)) → forever (happens P x).
  Proof. intros H Hf n. apply H. intros k _. destruct (Hf k) as (m&Hm&Hp). exists m. split; [done|by left]. Qed.
  Lemma usual_strong P x : (∀ X : Prop, X ∨ ¬ X) → (forever (λ n, possible step P (x_at x n)) → forever (happens P x)) → strongly_fair step P x.
  Proof.
    intros EM H n Hn. destruct (EM (∃ m, (n ≤ m)%nat ∧ happens P x m)) as [|Hnot]; [done|].
    apply (H (λ k, match Hn (max n k) ltac:(lia) with ex_intro _ m (conj H1 H2) => ex_intro _ m (conj (Nat.max_lub_r _ _ _ H1) (
      match H2 with or_introl H3 => H3 | or_intror (ex_intro _ j (conj H3 H4)) => match Hnot (ex_intro _ j (conj (proj1 H3) H4)) with end end)) end) n).
  Qed.
  (** a strongly fair action is weakly fair *)
  Lemma strong_weak P x : (∀ X : Prop, X ∨ ¬ X) → strongly_fair step P x → weakly_fair step P x.
  Proof.
    intros EM H n. destruct (EM (∃ m, (n ≤ m)%nat ∧ ¬ possible step P (x_at x m))) as [(m&H1&H2)|Hnot]; [by exists m; auto|].
    destruct (H n) as (m&H1&H2); [|exists m; auto]. intros k Hk. exists k. split; [done|]. left.
    destruct (EM (possible step P (x_at x k))) as [|Hn]; [done|]. destruct Hnot. eauto.
  Qed.

  (** ** stretches of an execution *)
  Lemma next x n : is_exec step x →
    (x_act x n = None ∧ x_at x (Datatypes.S n) = x_at x n) ∨ ∃ a, x_act x n = Some a ∧ step (x_at x n) a (x_at x (Datatypes.S n)).
  Proof. intros H. specialize (H n). destruct (x_act x n) as [a|]; [right; by exists a|by left]. Qed.

  Lemma acts_S x n : acts x (Datatypes.S n) = acts x n ++ match x_act x n with Some a => [a] | None => [] end.
  Proof.
    unfold acts. rewrite seq_S, omap_app. cbn. by destruct (x_act x n).
  Qed.
  Lemma acts_le x n m : (n ≤ m)%nat → acts x n `prefix_of` acts x m.
  Proof.
    induction 1 as [|m _ IH]; [done|]. rewrite acts_S. etrans; [exact IH|]. by eexists.
  Qed.
  Lemma acts_in x n a : a ∈ acts x n ↔ ∃ k, (k < n)%nat ∧ x_act x k = Some a.
  Proof.
    unfold acts. rewrite elem_of_list_omap. split.
    - intros (k&Hk%elem_of_seq&H). exists k. split; [lia|done].
    - intros (k&Hk&H). exists k. split; [apply elem_of_seq; lia|done].
  Qed.
  Lemma never_acts P x n : never P x → Forall (λ a, ¬ P a) (acts x n).
  Proof. intros H. apply Forall_forall. intros a (k&_&Hk)%acts_in Hp. apply (H k). by exists a. Qed.

  (** an invariant of the steps that may happen *)
  Lemma always x P I n : is_exec step x → never P x → I (x_at x n) → (∀ s a s', I s → ¬ P a → step s a s' → I s') →
    ∀ m, (n ≤ m)%nat → I (x_at x m).
  Proof.
    intros Hx Hn H0 HI. induction 1 as [|m _ IH]; [done|].
    destruct (next x m Hx) as [[_ ->]|(a&Ha&Hs)]; [done|]. eapply HI; [exact IH| |exact Hs]. intros Hp. apply (Hn m). by exists a.
  Qed.
  (** [I] holds until something in [P] happens, if nothing in [N] does *)
  Definition none_from (N : A → Prop) x n : Prop := ∀ j, (n ≤ j)%nat → ¬ happens N x j.
  Lemma never_none N x n : never N x → none_from N x n.
  Proof. intros H j _. apply H. Qed.
  Lemma none_later N x n m : none_from N x n → (n ≤ m)%nat → none_from N x m.
  Proof. intros H Hm j Hj. apply H. lia. Qed.
  Lemma none_false x n : none_from (λ _, False) x n.
  Proof. by intros j _ (a&_&?). Qed.
  Lemma until x N P I n m : is_exec step x → none_from N x n → I (x_at x n) → (∀ s a s', I s → step s a s' → P a ∨ N a ∨ I s') → (n ≤ m)%nat →
    (∃ j, (n ≤ j < m)%nat ∧ happens P x j ∧ I (x_at x j)) ∨ I (x_at x m).
  Proof.
    intros Hx HN H0 HI. induction 1 as [|m Hm IH]; [by right|]. destruct IH as [(j&Hj&H)|IH]; [left; exists j; split; [lia|done]|].
    destruct (next x m Hx) as [[_ ->]|(a&Ha&Hs)]; [by right|]. destruct (HI _ _ _ IH Hs) as [Hp|[Hn|Hi]]; [left| |by right].
    - exists m. split; [lia|]. split; [by exists a|done].
    - destruct (HN m Hm). by exists a.
  Qed.
  (** possible until it happens *)
  Lemma weak_leads x N P I n : is_exec step x → weakly_fair step P x → none_from N x n → I (x_at x n) →
    (∀ s, I s → possible step P s) → (∀ s a s', I s → step s a s' → P a ∨ N a ∨ I s') →
    ∃ m, (n ≤ m)%nat ∧ happens P x m ∧ I (x_at x m).
  Proof.
    intros Hx Hw HN H0 He HI. destruct (Hw n) as (m&Hm&H). destruct (until x N P I n m Hx HN H0 HI Hm) as [(j&Hj&H1)|H1]; [exists j; split; [lia|done]|].
    destruct H as [H|H]; [by exists m|]. destruct H. by apply He.
  Qed.
  Lemma weak_leads_at x N P I n : is_exec step x → weakly_fair step P x → none_from N x n → I (x_at x n) →
    (∀ m, (n ≤ m)%nat → I (x_at x m) → possible step P (x_at x m)) → (∀ s a s', I s → step s a s' → P a ∨ N a ∨ I s') →
    ∃ m, (n ≤ m)%nat ∧ happens P x m ∧ I (x_at x m).
  Proof.
    intros Hx Hw HN H0 He HI. destruct (Hw n) as (m&Hm&H). destruct (until x N P I n m Hx HN H0 HI Hm) as [(j&Hj&H1)|H1]; [exists j; split; [lia|done]|].
    destruct H as [H|H]; [by exists m|]. destruct H. by apply He.
  Qed.
  (** possible again and again until it happens *)
  Lemma strong_leads x N P I n : is_exec step x → strongly_fair step P x → none_from N x n → I (x_at x n) →
    (∀ k, (n ≤ k)%nat → I (x_at x k) → ∃ m, (k ≤ m)%nat ∧ (I (x_at x m) → possible step P (x_at x m))) →
    (∀ s a s', I s → step s a s' → P a ∨ N a ∨ I s') →
    ∃ m, (n ≤ m)%nat ∧ happens P x m ∧ I (x_at x m).
  Proof.
    intros Hx Hw HN H0 He HI. cut (∃ m, (n ≤ m)%nat ∧ happens P x m).
    { intros (m&Hm&H). destruct (until x N P I n m Hx HN H0 HI Hm) as [(j&Hj&H1)|H1]; [exists j; split; [lia|done]|by exists m]. }
    apply Hw. intros k Hk.
    destruct (until x N P I n k Hx HN H0 HI Hk) as [(j&Hj&H1&_)|H1]; [exists k; split; [done|right; exists j; split; [lia|done]]|].
    destruct (He k Hk H1) as (m&Hm&H2). exists m. split; [done|].
    destruct (until x N P I k m Hx (none_later _ _ _ _ HN Hk) H1 HI Hm) as [(j&Hj&H3&_)|H3]; [right; exists j; split; [lia|done]|left; by apply H2].
  Qed.
  (** the first moment something happens, if it can be told whether it does *)
  Lemma first x P n m : (∀ a, Decision (P a)) → (n ≤ m)%nat → happens P x m →
    ∃ k, (n ≤ k ≤ m)%nat ∧ happens P x k ∧ ∀ j, (n ≤ j < k)%nat → ¬ happens P x j.
  Proof.
    intros Hd Hm. assert (D : ∀ j, happens P x j ∨ ¬ happens P x j).
    { intros j. unfold happens. destruct (x_act x j) as [a|]; [|right; by intros (a&?&_)].
      destruct (Hd a); [left; by exists a|right; intros (b&[= <-]&?); done]. }
    revert Hm. remember (m - n)%nat as d eqn:Ed. revert n Ed. induction d as [|d IH]; intros n Ed Hm H.
    - exists m. split; [lia|]. split; [done|]. intros j Hj. lia.
    - destruct (D n) as [Hn|Hn]; [exists n; split; [lia|]; split; [done|lia]|].
      destruct (IH (Datatypes.S n) ltac:(lia) ltac:(lia) H) as (k&Hk&H1&H2). exists k. split; [lia|]. split; [done|].
      intros j Hj. destruct (decide (j = n)) as [->|]; [done|]. apply H2. lia.
  Qed.
End Fair.

(** ** Executions given by what is done next *)
Section Run.
  Context {S A : Type} (step : S → A → S → Prop) (f : nat → S → option A * S) (s0 : S).
  Fixpoint run_at (n : nat) : S := match n with O => s0 | Datatypes.S k => (f k (run_at k)).2 end.
  Definition run : exec S A := Exec run_at (λ n, (f n (run_at n)).1).
  Lemma run_exec : (∀ n, match (f n (run_at n)).1 with Some a => step (run_at n) a (f n (run_at n)).2 | None => (f n (run_at n)).2 = run_at n end) →
    is_exec step run.
  Proof. intros H n. exact (H n). Qed.
  Lemma run_inv (I : nat → S → Prop) n0 : I n0 (run_at n0) → (∀ n s, (n0 ≤ n)%nat → I n s → I (Datatypes.S n) (f n s).2) → ∀ n, (n0 ≤ n)%nat → I n (run_at n).
  Proof. intros H0 HI. induction 1 as [|n Hn IH]; [done|]. cbn. by apply HI. Qed.
End Run.

Section Still.
  Context {S A : Type} (step : S → A → S → Prop).
  Implicit Types (x : exec S A) (P : A → Prop).
  (** what is again and again impossible *)
  Lemma weak_impossible P x : (∀ n, ∃ m, (n ≤ m)%nat ∧ ¬ possible step P (x_at x m)) → weakly_fair step P x.
  Proof. intros H n. destruct (H n) as (m&?&?). exists m. auto. Qed.
  Lemma weak_happens P x : (∀ n, ∃ m, (n ≤ m)%nat ∧ happens P x m) → weakly_fair step P x.
  Proof. intros H n. destruct (H n) as (m&?&?). exists m. auto. Qed.
  Lemma strong_happens P x : (∀ n, ∃ m, (n ≤ m)%nat ∧ happens P x m) → strongly_fair step P x.
  Proof. intros H n _. apply H. Qed.
  Lemma strong_impossible P x n0 : (∀ n, (n0 ≤ n)%nat → ¬ possible step P (x_at x n)) → strongly_fair step P x.
  Proof.
    intros H n Hn. destruct (Hn (max n n0) ltac:(lia)) as (m&Hm&[Hp|(j&Hj&Hp)]); [destruct (H m); [lia|done]|]. exists j. split; [lia|done].
  Qed.
End Still.
