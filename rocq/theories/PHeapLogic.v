(** * A separation logic for heaps (used only in proofs)

    An instance of the BI interface of the Iris library for predicates over
    finite heaps that are closed under heap extension.  No axioms. *)
From stdpp Require Import gmap.
From iris.bi Require Import interface.
From iris.proofmode Require Import tactics.

Section logic.
  Context {V : Type}.
  Notation hp := (gmap positive V).

  Record hprop := HProp {
    hprop_at :> hp → Prop;
    hprop_closed : ∀ h1 h2, hprop_at h1 → h1 ⊆ h2 → hprop_at h2 }.

  Section ofe.
    Inductive hprop_equiv' (P Q : hprop) : Prop :=
      { hprop_in_equiv : ∀ h, hprop_at P h ↔ hprop_at Q h }.
    Local Instance hprop_equiv : Equiv hprop := hprop_equiv'.
    Local Instance hprop_equivalence : Equivalence (≡@{hprop}).
    Proof.
      split; repeat destruct 1; constructor; naive_solver.
    Qed.
    Canonical Structure hpropO := discreteO hprop.
  End ofe.

  Inductive hprop_entails (P Q : hprop) : Prop :=
    { hprop_in_entails : ∀ h, hprop_at P h → hprop_at Q h }.

  Local Program Definition hprop_emp : hprop := {| hprop_at h := True |}.
  Next Obligation. done. Qed.
  Local Program Definition hprop_pure (φ : Prop) : hprop := {| hprop_at _ := φ |}.
  Next Obligation. done. Qed.
  Local Program Definition hprop_and (P Q : hprop) : hprop :=
    {| hprop_at h := P h ∧ Q h |}.
  Next Obligation. naive_solver eauto using hprop_closed. Qed.
  Local Program Definition hprop_or (P Q : hprop) : hprop :=
    {| hprop_at h := P h ∨ Q h |}.
  Next Obligation. naive_solver eauto using hprop_closed. Qed.
  Local Program Definition hprop_impl (P Q : hprop) : hprop :=
    {| hprop_at h := ∀ h', h ⊆ h' → P h' → Q h' |}.
  Next Obligation. intros P Q h1 h2 H Hs h' Hs'. apply H. by etrans. Qed.
  Local Program Definition hprop_forall {A} (Ψ : A → hprop) : hprop :=
    {| hprop_at h := ∀ a, Ψ a h |}.
  Next Obligation. naive_solver eauto using hprop_closed. Qed.
  Local Program Definition hprop_exist {A} (Ψ : A → hprop) : hprop :=
    {| hprop_at h := ∃ a, Ψ a h |}.
  Next Obligation. naive_solver eauto using hprop_closed. Qed.
  Local Program Definition hprop_sep (P Q : hprop) : hprop :=
    {| hprop_at h := ∃ h1 h2, h = h1 ∪ h2 ∧ h1 ##ₘ h2 ∧ P h1 ∧ Q h2 |}.
  Next Obligation.
    intros P Q h h' (h1 & h2 & -> & Hd & HP & HQ) Hs.
    exists h1, (h' ∖ h1). split_and!.
    - symmetry. apply map_difference_union. etrans; [|exact Hs]. apply map_union_subseteq_l.
    - apply map_disjoint_spec. intros i x y Hx Hy. apply lookup_difference_Some in Hy as [_ Hy]. congruence.
    - done.
    - eapply hprop_closed; [exact HQ|]. apply map_subseteq_spec. intros i x Hx.
      apply lookup_difference_Some. split.
      + eapply lookup_weaken; [|exact Hs]. by apply lookup_union_Some_r.
      + by eapply map_disjoint_Some_r.
  Qed.
  Local Program Definition hprop_wand (P Q : hprop) : hprop :=
    {| hprop_at h := ∀ h', h ##ₘ h' → P h' → Q (h ∪ h') |}.
  Next Obligation.
    intros P Q h1 h2 H Hs h' Hd HP. eapply hprop_closed.
    - apply H; [|exact HP]. by eapply map_disjoint_weaken_l.
    - by apply map_union_mono_r.
  Qed.
  Local Program Definition hprop_persistently (P : hprop) : hprop :=
    {| hprop_at h := P ∅ |}.
  Next Obligation. done. Qed.

  Local Lemma hprop_bi_mixin :
    BiMixin hprop_entails hprop_emp hprop_pure hprop_and hprop_or hprop_impl
      (@hprop_forall) (@hprop_exist) hprop_sep hprop_wand hprop_persistently.
  Proof.
    split.
    - split.
      + intros P. by constructor.
      + intros P Q R [H1] [H2]. constructor. naive_solver.
    - intros P Q. split.
      + intros [H]. split; constructor; naive_solver.
      + intros [[H1] [H2]]. constructor. naive_solver.
    - intros n φ1 φ2 H. constructor. cbn. naive_solver.
    - intros n P1 P2 [HP] Q1 Q2 [HQ]. constructor. cbn. naive_solver.
    - intros n P1 P2 [HP] Q1 Q2 [HQ]. constructor. cbn. naive_solver.
    - intros n P1 P2 [HP] Q1 Q2 [HQ]. constructor. cbn. naive_solver.
    - intros A n Φ1 Φ2 H. constructor. cbn. intros h.
      split; intros Hx a; destruct (H a) as [Ha]; naive_solver.
    - intros A n Φ1 Φ2 H. constructor. cbn. intros h.
      split; intros [a Hx]; destruct (H a) as [Ha]; exists a; naive_solver.
    - intros n P1 P2 [HP] Q1 Q2 [HQ]. constructor. cbn. intros h.
      split; intros (h1 & h2 & ?); exists h1, h2; naive_solver.
    - intros n P1 P2 [HP] Q1 Q2 [HQ]. constructor. cbn. intros h. naive_solver.
    - intros n P1 P2 [HP]. constructor. cbn. naive_solver.
    - intros φ P H. constructor. by cbn.
    - intros φ P H. constructor. cbn. intros h Hφ. by apply (H Hφ).
    - intros P Q. constructor. cbn. naive_solver.
    - intros P Q. constructor. cbn. naive_solver.
    - intros P Q R [H1] [H2]. constructor. cbn. naive_solver.
    - intros P Q. constructor. cbn. naive_solver.
    - intros P Q. constructor. cbn. naive_solver.
    - intros P Q R [H1] [H2]. constructor. cbn. naive_solver.
    - intros P Q R [H]. constructor. cbn. intros h HP h' Hs HQ. apply H. split; [|done].
      by eapply hprop_closed.
    - intros P Q R [H]. constructor. cbn. intros h [HP HQ]. by eapply H.
    - intros A P Ψ H. constructor. cbn. intros h HP a. by apply (H a).
    - intros A Ψ a. constructor. cbn. naive_solver.
    - intros A Ψ a. constructor. cbn. naive_solver.
    - intros A Φ Q H. constructor. cbn. intros h [a Ha]. by apply (H a).
    - intros P P' Q Q' [HP] [HQ]. constructor. cbn. naive_solver.
    - intros P. constructor. cbn. intros h HP. exists ∅, h. split_and!; [| |done|done].
      + by rewrite (left_id_L _ _).
      + apply map_disjoint_empty_l.
    - intros P. constructor. cbn. intros h (h1 & h2 & -> & Hd & _ & HP).
      eapply hprop_closed; [exact HP|]. by apply map_union_subseteq_r.
    - intros P Q. constructor. cbn. intros h (h1 & h2 & -> & Hd & HP & HQ).
      exists h2, h1. split_and!; [|done|done|done]. by apply map_union_comm.
    - intros P Q R. constructor. cbn. intros h (h12 & h3 & -> & Hd & (h1 & h2 & -> & Hd' & HP & HQ) & HR).
      apply map_disjoint_union_l in Hd as [Hd1 Hd2].
      exists h1, (h2 ∪ h3). split_and!.
      + by rewrite (assoc_L _).
      + by apply map_disjoint_union_r.
      + done.
      + exists h2, h3. done.
    - intros P Q R [H]. constructor. cbn. intros h HP h' Hd HQ. apply H. exists h, h'. done.
    - intros P Q R [H]. constructor. cbn. intros h (h1 & h2 & -> & Hd & HP & HQ). by apply H.
    - intros P Q [H]. constructor. cbn. naive_solver.
    - intros P. constructor. by cbn.
    - constructor. by cbn.
    - intros P Q. constructor. by cbn.
    - intros A Ψ. constructor. by cbn.
    - intros P Q. constructor. cbn. by intros h (h1 & h2 & _ & _ & HP & _).
    - intros P Q. constructor. cbn. intros h [HP HQ]. exists ∅, h. split_and!; [| |done|done].
      + by rewrite (left_id_L _ _).
      + apply map_disjoint_empty_l.
  Qed.

  Local Definition hprop_later (P : hprop) : hprop := P.
  Local Lemma hprop_bi_later_mixin :
    BiLaterMixin hprop_entails hprop_pure hprop_or hprop_impl
      (@hprop_forall) (@hprop_exist) hprop_sep hprop_persistently hprop_later.
  Proof. eapply bi_later_mixin_id; [done|apply hprop_bi_mixin]. Qed.

  Canonical Structure hpropI : bi :=
    {| bi_ofe_mixin := ofe_mixin_of hprop;
       bi_bi_mixin := hprop_bi_mixin; bi_bi_later_mixin := hprop_bi_later_mixin |}.

  Global Instance hprop_pure_forall : BiPureForall hpropI.
  Proof. intros A φ. constructor. intros h Hφ. exact Hφ. Qed.
  Global Instance hprop_affine : BiAffine hpropI | 0.
  Proof. constructor. by cbn. Qed.

  (** what the connectives mean *)
  Lemma hprop_entails_at (P Q : hpropI) : (P ⊢ Q) ↔ ∀ h, hprop_at P h → hprop_at Q h.
  Proof. split; [by intros []|by constructor]. Qed.
  Lemma hprop_sep_at (P Q : hpropI) h :
    hprop_at (P ∗ Q)%I h ↔ ∃ h1 h2, h = h1 ∪ h2 ∧ h1 ##ₘ h2 ∧ hprop_at P h1 ∧ hprop_at Q h2.
  Proof. done. Qed.
  Lemma hprop_exist_at {A} (Ψ : A → hpropI) h : hprop_at (∃ a, Ψ a)%I h ↔ ∃ a, hprop_at (Ψ a) h.
  Proof. done. Qed.
  Lemma hprop_pure_at (φ : Prop) h : hprop_at (⌜φ⌝ : hpropI)%I h ↔ φ.
  Proof. done. Qed.
  Lemma hprop_and_at (P Q : hpropI) h : hprop_at (P ∧ Q)%I h ↔ hprop_at P h ∧ hprop_at Q h.
  Proof. done. Qed.
  Lemma hprop_wand_at (P Q : hpropI) h :
    hprop_at (P -∗ Q)%I h ↔ ∀ h', h ##ₘ h' → hprop_at P h' → hprop_at Q (h ∪ h').
  Proof. done. Qed.
  Lemma hprop_emp_at h : hprop_at (emp%I : hpropI) h.
  Proof. done. Qed.

  (** one cell *)
  Program Definition pts (p : positive) (c : V) : hpropI := {| hprop_at h := h !! p = Some c |}.
  Next Obligation. cbn. intros p c h1 h2 H Hs. by eapply lookup_weaken. Qed.
End logic.
Arguments hprop : clear implicits.
Arguments hpropI : clear implicits.
Notation "p ↦ c" := (pts p c) (at level 20, format "p  ↦  c") : bi_scope.
