(** * What healthd keeps of several reports about one interval *)
From Verif Require Import SHealthd PHealthd.

(** ** what is left of the reports about one interval *)
Section left.
  Context {A : Type} (n : A → Z).
  Definition left_by (l : list A) (d : A) : Prop :=
    ∃ l1 l2, l = l1 ++ d :: l2 ∧ (∀ x, x ∈ l2 → n x = n d) ∧ ∀ x, last l1 = Some x → n x ≠ n d.
  Definition keep (acc : option A) (d : A) : option A :=
    match acc with Some o => if n o =? n d then Some o else Some d | None => Some d end.
  Lemma keep_left l : l ≠ [] → ∃ d, fold_left keep l None = Some d ∧ left_by l d.
  Proof.
    induction l as [|x l IH] using rev_ind; [done|]. intros _. rewrite fold_left_app. cbn [fold_left].
    destruct l as [|y l0]. { exists x. split; [done|]. exists [], []. split; [done|]. split; [intros ? H; by apply elem_of_nil in H|done]. }
    destruct IH as (d & -> & l1 & l2 & E & H1 & H2); [done|]. cbn [keep]. destruct (Z.eqb_spec (n d) (n x)) as [En|En].
    - exists d. split; [done|]. exists l1, (l2 ++ [x]). rewrite E, <- app_assoc. split; [done|]. split; [|done].
      intros z Hz. apply elem_of_app in Hz as [Hz|Hz]; [auto|]. by apply elem_of_list_singleton in Hz as ->.
    - exists x. split; [done|]. exists (y :: l0), []. split; [done|]. split; [intros ? H; by apply elem_of_nil in H|].
      intros z Hz. rewrite E, last_app, last_cons in Hz. destruct (last l2) as [u|] eqn:El.
      + injection Hz as ->. rewrite H1; [done|]. by apply last_Some_elem_of.
      + injection Hz as <-. done.
  Qed.
End left.
Lemma left_by_map {A B} (f : A → B) (n : A → Z) (m : B → Z) l g : (∀ x, m (f x) = n x) →
  left_by m (map f l) g → ∃ x, left_by n l x ∧ g = f x.
Proof.
  intros Hm (l1 & l2 & E & H1 & H2). apply map_eq_app in E as (k1 & k2 & -> & <- & E).
  destruct k2 as [|x k2]; [done|]. cbn in E. injection E as <- <-. exists x. split; [|done]. exists k1, k2. split; [done|]. split.
  - intros y Hy. rewrite <- !Hm. apply H1. apply elem_of_list_fmap. eauto.
  - intros y Hy. rewrite <- !Hm. apply H2. change (last (f <$> k1) = Some (f y)). by rewrite fmap_last, Hy.
Qed.

Lemma ca_fold inst hp l : ∀ host need host' need' key,
  consume_aggs inst hp l host need = Ok (host', need') →
  host' !! key = fold_left (keep (λ d, ia_serial (d_ia d))) (rl inst hp l key) (host !! key).
Proof.
  induction l as [|[d|] l IH]; intros host need host' need' key H; [by injection H as <- <-| |done].
  apply ca_step in H as (h1 & n1 & H & Hcase). rewrite (IH _ _ _ _ key H).
  destruct (decide ((d_time d, inst, hp) = key)) as [Hk|Hk].
  - rewrite rl_cons_eq by done. cbn [fold_left]. f_equal.
    destruct Hcase as [(old & Ho & Hs & -> & ->)|(Ho & -> & ->)]; rewrite Hk in *.
    + rewrite Ho. cbn. by rewrite Hs, Z.eqb_refl.
    + rewrite lookup_insert. destruct (host !! key) as [o|]; cbn; [|done]. specialize (Ho o eq_refl). by destruct (Z.eqb_spec (ia_serial (d_ia o)) (ia_serial (d_ia d))).
  - rewrite rl_cons_ne by done. f_equal. destruct Hcase as [(old & Ho & Hs & -> & ->)|(Ho & -> & ->)]; [done|]. by rewrite lookup_insert_ne.
Qed.
