(** * healthd's data race, and that there is no other (C123, C124) *)
From Verif Require Import SHealthdRace.

Definition over (ps : list pphase) (r : presp) : Prop := ps !! rp_poll r = Some PDone.
Definition fits (D d : Z) : Prop := d = D ∧ D ≠ 0.
Definition loop_owns (l : loc) : Prop := match l with LStatus _ | LMax | LNeed | LPub | LMerged | LStored => True | _ => False end.
Definition op_ok (ps : list pphase) (D : Z) (x : lop) : Prop :=
  match x with
  | OAcc (Rd (LResp p)) => ps !! p = Some PDone
  | OAcc (Rd (LSnap _)) => False
  | OAcc (Rd _) => True
  | OAcc (Wr l) => loop_owns l
  | ODur r => over ps r
  | OSetDur _ => False
  | OStore r => over ps r ∧ fits D (rp_dur r)
  | OPurge keep => Forall (λ r, over ps r ∧ fits D (rp_dur r)) keep
  | OPublish ds => Forall (fits D) ds
  end.
Definition make_ok (n : nat) (x : lop) : Prop :=
  match x with OAcc (Rd l) => match l with LPub | LMerged | LHosts | LPort _ | LStatus _ => True | _ => False end | OAcc (Wr l) => l = LSnap n | _ => False end.
Definition loop_ok (s : hr) : Prop :=
  match hr_loop s with
  | LDo (OSetDur d :: l) => hr_dur s = 0 ∧ (d ≠ 0 → Forall (op_ok (hr_polls s) d) l)
  | LDo l => Forall (op_ok (hr_polls s) (hr_dur s)) l
  | LMake _ _ n l => (n < hr_snaps s)%nat ∧ Forall (make_ok n) l ∧ ∀ j ds, hr_handlers s j ≠ HRead n ds
  | LSend _ n ds => (n < hr_snaps s)%nat ∧ (∀ j ds', hr_handlers s j ≠ HRead n ds') ∧ Forall (fits (hr_dur s)) ds
  | _ => True
  end.
Local Arguments loop_ok : simpl never.
Local Arguments store_ops : simpl never.
Record inv (s : hr) : Prop := {
  i_stored : Forall (λ r, over (hr_polls s) r ∧ fits (hr_dur s) (rp_dur r)) (hr_stored s);
  i_pub : Forall (fits (hr_dur s)) (hr_pub s);
  i_resp : ∀ r, Some r ∈ hr_resp s → over (hr_polls s) r;
  i_send : ∀ p r, hr_polls s !! p = Some (PSend r) → rp_poll r = p;
  i_loop : loop_ok s;
  i_handler : ∀ i, match hr_handlers s i with HRead n ds => (n < hr_snaps s)%nat ∧ Forall (fits (hr_dur s)) ds | HDur ds => Forall (fits (hr_dur s)) ds | _ => True end;
  i_own : ∀ i j n ds ds', hr_handlers s i = HRead n ds → hr_handlers s j = HRead n ds' → i = j }.

(** polls that are over stay so *)
Definition keeps (ps ps' : list pphase) : Prop := ∀ p, ps !! p = Some PDone → ps' !! p = Some PDone.
Lemma op_keeps ps ps' D x : keeps ps ps' → op_ok ps D x → op_ok ps' D x.
Proof.
  intros K. destruct x as [[[]|[]]| | | | |]; cbn; unfold over; auto.
  - intros [H1 H2]. auto.
  - intros H. eapply Forall_impl; [exact H|]. cbn. intros r [H1 H2]. auto.
Qed.
Lemma ops_keep ps ps' D l : keeps ps ps' → Forall (op_ok ps D) l → Forall (op_ok ps' D) l.
Proof. intros K H. eapply Forall_impl; [exact H|]. intros x. by apply op_keeps. Qed.
Lemma keeps_insert ps p x : ps !! p ≠ Some PDone → keeps ps (<[p := x]> ps).
Proof. intros H q Hq. rewrite list_lookup_insert_ne; [done|]. congruence. Qed.
Lemma keeps_app ps l : keeps ps (ps ++ l).
Proof. intros q Hq. by apply lookup_app_l_Some. Qed.

(** only the polls, the rounds and the queue of responses changed *)
Lemma inv_polls s s' : inv s → keeps (hr_polls s) (hr_polls s') →
  hr_dur s' = hr_dur s → hr_loop s' = hr_loop s → hr_stored s' = hr_stored s → hr_pub s' = hr_pub s → hr_snaps s' = hr_snaps s → hr_handlers s' = hr_handlers s →
  (∀ r, Some r ∈ hr_resp s' → over (hr_polls s') r) → (∀ p r, hr_polls s' !! p = Some (PSend r) → rp_poll r = p) → inv s'.
Proof.
  intros [H1 H2 H3 H4 H5 H6 H7] K E1 E2 E3 E4 E5 E6 H8 H9.
  constructor; rewrite ?E1, ?E3, ?E4, ?E5, ?E6; try done.
  - eapply Forall_impl; [exact H1|]. intros r [Ho Hf]. split; [by apply K|done].
  - unfold loop_ok in *. rewrite E1, E2, E5, E6. destruct (hr_loop s) as [|[|x l]| | |]; try done.
    destruct x; try (by eapply ops_keep). destruct H5 as [H5 H5']. split; [done|]. intros Hd. eapply ops_keep; [done|by apply H5'].
Qed.

Lemma known_ok ps D (l : list presp) : Forall (λ r, over ps r ∧ fits D (rp_dur r)) l → ∀ D', Forall (op_ok ps D') (map (λ x, OAcc (Rd (LResp (rp_poll x)))) l).
Proof. intros H D'. rewrite Forall_map. eapply Forall_impl; [exact H|]. by intros r [? _]. Qed.
Lemma store_ok ps D D' r l : over ps r → Forall (λ r, over ps r ∧ fits D (rp_dur r)) l → fits D' (rp_dur r) → Forall (op_ok ps D') (store_ops r l).
Proof.
  intros Hr Hl Hf. unfold store_ops. constructor; [done|]. constructor; [done|]. apply Forall_app. split; [by eapply known_ok|]. constructor; [done|]. by constructor.
Qed.
Lemma consume_ok ps D r : over ps r → Forall (op_ok ps D) (consume_ops r).
Proof. intros Hr. unfold consume_ops. apply Forall_app. split; [|destruct (rp_good r)]; repeat (constructor; try done). Qed.
Lemma recalc_ok ps D l ds : Forall (λ r, over ps r ∧ fits D (rp_dur r)) l → Forall (fits D) ds → Forall (op_ok ps D) (recalc_ops l ds).
Proof.
  intros Hl Hd. unfold recalc_ops. apply Forall_app. split; [repeat constructor|]. apply Forall_app. split; [by eapply known_ok|].
  repeat (constructor; try done).
Qed.
Lemma make_ops_ok q h n : Forall (make_ok n) (make_ops q h n).
Proof.
  destruct q; cbn; [repeat (constructor; try done)|]. constructor; [done|]. apply Forall_app. split; [|by repeat (constructor; try done)].
  apply Forall_concat, Forall_map, Forall_true. intros k. repeat (constructor; try done).
Qed.

(** a plain loop state *)
Lemma loop_do s l : hr_loop s = LDo l → Forall (op_ok (hr_polls s) (hr_dur s)) l → loop_ok s.
Proof. intros E H. unfold loop_ok. rewrite E. destruct l as [|x l]; [done|]. destruct x; try done. by inversion H. Qed.
Lemma do_loop s x l : hr_loop s = LDo (x :: l) → loop_ok s → (∀ d, x ≠ OSetDur d) → op_ok (hr_polls s) (hr_dur s) x ∧ Forall (op_ok (hr_polls s) (hr_dur s)) l.
Proof. intros E H Hx. unfold loop_ok in H. rewrite E in H. destruct x; try (by inversion H; subst). by destruct (Hx d). Qed.
Lemma fits_zero (l : list Z) D : Forall (fits 0) l → Forall (fits D) l.
Proof. intros H. eapply Forall_impl; [exact H|]. by intros x [_ ?]. Qed.

Lemma op_zero ps D x : op_ok ps 0 x → op_ok ps D x.
Proof.
  destruct x as [[[]|[]]| | | | |]; cbn; try done.
  - by intros [_ [_ ?]].
  - intros H. eapply Forall_impl; [exact H|]. by intros r [_ [_ ?]].
  - apply fits_zero.
Qed.
Lemma sub_durs s ds : inv s → ds ⊆ map rp_dur (hr_stored s) ++ hr_pub s → Forall (fits (hr_dur s)) ds.
Proof.
  intros I H. apply Forall_forall. intros d Hd. apply H, elem_of_app in Hd as [Hd|Hd].
  - apply elem_of_list_fmap in Hd as (r&->&Hr). by apply (proj1 (Forall_forall _ _) (i_stored _ I)) in Hr as [_ ?].
  - by apply (proj1 (Forall_forall _ _) (i_pub _ I)) in Hd.
Qed.

Lemma inv_handler s i h : inv s → match h with HRead _ _ => False | HDur ds => Forall (fits (hr_dur s)) ds | _ => True end → True → inv (set_handler s i h).
Proof.
  intros [H1 H2 H3 H4 H5 H6 H7] Hh _. constructor; cbn; try done.
  - unfold loop_ok in *. cbn. destruct (hr_loop s) as [| |j q n l|j n ds|]; try done.
    + destruct H5 as (?&?&H). split; [done|]. split; [done|]. intros k ds. case_decide; [by destruct h|apply H].
    + destruct H5 as (?&H&?). split; [done|]. split; [|done]. intros k ds'. case_decide; [by destruct h|apply H].
  - intros j. case_decide; [by destruct h|apply H6].
  - intros j k n ds ds'. case_decide; [by destruct h|]. case_decide; [by destruct h|]. apply H7.
Qed.
Lemma inv_step s a s' : hrstep s a s' → inv s → inv s'.
Proof.
  intros St I. destruct St as [s keep E Hk|s r q E Er|s q ds E Er Hds|s ds E Hds|s i q E Eh|s x l E|s i q n a l E|s i q n E|s i n ds E
    |s k E Ek|s k ps E Ek Hps|s p h E Ep|s p h good d E Ep|s p r E Ep|s i q E Eh|s i E Eh|s i n ds E Eh|s i ds E Eh].
  - destruct I as [H1 H2 H3 H4 H5 H6 H7]. constructor; cbn; try done. eapply loop_do; [done|]. cbn. repeat (constructor; try done). cbn.
    apply Forall_forall. intros r Hr. apply (proj1 (Forall_forall _ _) H1). by apply Hk.
  - assert (over (hr_polls s) r) by (apply (i_resp _ I); rewrite Er; by left).
    destruct I as [H1 H2 H3 H4 H5 H6 H7]. constructor; cbn; try done; [|eapply loop_do; [done|]; by apply consume_ok].
    intros r' Hr'. apply H3. rewrite Er. by right.
  - pose proof (sub_durs _ _ I Hds) as Hf.
    destruct I as [H1 H2 H3 H4 H5 H6 H7]. constructor; cbn; try done; [|eapply loop_do; [done|]; by apply recalc_ok].
    intros r' Hr'. apply H3. rewrite Er. by right.
  - pose proof (sub_durs _ _ I Hds) as Hf.
    destruct I as [H1 H2 H3 H4 H5 H6 H7]. constructor; cbn; try done. eapply loop_do; [done|]. by apply recalc_ok.
  - destruct I as [H1 H2 H3 H4 H5 H6 H7]. constructor; cbn; try done.
    + unfold loop_ok. cbn. split; [lia|]. split; [apply make_ops_ok|]. intros j ds Ej. specialize (H6 j). rewrite Ej in H6. lia.
    + intros j. specialize (H6 j). destruct (hr_handlers s j); try done. split; [lia|tauto].
  - (* a step of an operation *)
    destruct x as [a|r|d|r|keep|ds].
    + destruct (do_loop _ _ _ E (i_loop _ I)) as [_ Hl]; [done|]. destruct I as [H1 H2 H3 H4 H5 H6 H7]. constructor; cbn; try done.
      destruct l; [done|]. by eapply loop_do.
    + destruct (do_loop _ _ _ E (i_loop _ I)) as [Hr Hl]; [done|]. cbn in Hr. destruct I as [H1 H2 H3 H4 H5 H6 H7].
      cbn. destruct (Z.eqb_spec (hr_dur s) 0) as [Hd|Hd]; [|destruct (Z.eqb_spec (hr_dur s) (rp_dur r)) as [Hd'|Hd']]; (constructor; cbn; try done).
      * unfold loop_ok. cbn. split; [done|]. intros Hne. constructor; [done|]. constructor; [done|]. apply Forall_app. split; [|].
        { eapply store_ok; [done|exact H1|done]. }
        { rewrite Hd in Hl. eapply Forall_impl; [exact Hl|]. intros x. apply op_zero. }
      * assert (Hs : Forall (op_ok (hr_polls s) (hr_dur s)) (store_ops r (hr_stored s) ++ l)).
        { apply Forall_app. split; [|done]. eapply store_ok; [done|exact H1|by split]. }
        destruct (store_ops r (hr_stored s) ++ l); [done|]. by eapply loop_do.
      * eapply loop_do; [done|]. by constructor.
    + destruct I as [H1 H2 H3 H4 H5 H6 H7]. unfold loop_ok in H5. rewrite E in H5. destruct H5 as [H0 Hl].
      rewrite H0 in *. constructor; cbn; try done.
      * eapply Forall_impl; [exact H1|]. by intros r [_ [_ ?]].
      * by apply fits_zero.
      * destruct (Z.eqb_spec d 0) as [Hd|Hd]; [done|]. specialize (Hl Hd). cbn. destruct l; [done|]. by eapply loop_do.
      * intros i. specialize (H6 i). destruct (hr_handlers s i); try done; [destruct H6; split; [done|]|]; by apply fits_zero.
    + destruct (do_loop _ _ _ E (i_loop _ I)) as [[Hr Hf] Hl]; [done|]. destruct I as [H1 H2 H3 H4 H5 H6 H7]. constructor; cbn; try done.
      * by constructor.
      * destruct l; [done|]. by eapply loop_do.
    + destruct (do_loop _ _ _ E (i_loop _ I)) as [Hr Hl]; [done|]. destruct I as [H1 H2 H3 H4 H5 H6 H7]. constructor; cbn; try done.
      destruct l; [done|]. by eapply loop_do.
    + destruct (do_loop _ _ _ E (i_loop _ I)) as [Hr Hl]; [done|]. destruct I as [H1 H2 H3 H4 H5 H6 H7]. constructor; cbn; try done.
      destruct l; [done|]. by eapply loop_do.
  - destruct I as [H1 H2 H3 H4 H5 H6 H7]. constructor; cbn; try done. unfold loop_ok in *. rewrite E in H5. cbn. destruct H5 as (?&Hl&?). split; [done|]. split; [by inversion Hl|done].
  - destruct I as [H1 H2 H3 H4 H5 H6 H7]. constructor; cbn; try done. unfold loop_ok in *. rewrite E in H5. cbn. destruct H5 as (?&Hl&?). split; [done|]. split; [done|]. by destruct q.
  - destruct I as [H1 H2 H3 H4 H5 H6 H7]. unfold loop_ok in H5. rewrite E in H5. destruct H5 as (Hn&Ho&Hf). constructor; cbn; try done.
    + intros j. case_decide; [done|apply H6].
    + intros j k m ds1 ds2. case_decide as Hj; case_decide as Hk; [congruence| | |apply H7].
      * intros [= -> ->] Hk'. by destruct (Ho k ds2).
      * intros Hj' [= -> ->]. by destruct (Ho j ds1).
  - apply (inv_polls s); cbn; try done; [apply keeps_app| |].
    + intros r Hr. apply keeps_app. by apply (i_resp _ I).
    + intros p r Hp. apply lookup_app_Some in Hp as [Hp|[_ Hp]]; [by apply (i_send _ I)|]. apply elem_of_list_lookup_2, elem_of_list_fmap in Hp as (?&?&_). done.
  - apply (inv_polls s); cbn; try done; [by intros q Hq| |apply (i_send _ I)].
    intros r Hr. apply elem_of_app in Hr as [Hr|Hr]; [by apply (i_resp _ I)|]. by apply elem_of_list_singleton in Hr.
  - assert (K : keeps (hr_polls s) (<[p := PFill h]> (hr_polls s))) by (apply keeps_insert; congruence).
    apply (inv_polls s); cbn; try done.
    + intros r Hr. apply K. by apply (i_resp _ I).
    + intros p' r Hp. apply list_lookup_insert_Some in Hp as [(_&?&_)|[_ Hp]]; [done|]. by apply (i_send _ I).
  - assert (K : keeps (hr_polls s) (<[p := PSend (PResp p h good d)]> (hr_polls s))) by (apply keeps_insert; congruence).
    apply (inv_polls s); cbn; try done.
    + intros r Hr. apply K. by apply (i_resp _ I).
    + intros p' r Hp. apply list_lookup_insert_Some in Hp as [(->&[= <-]&_)|[_ Hp]]; [done|]. by apply (i_send _ I).
  - assert (K : keeps (hr_polls s) (<[p := PDone]> (hr_polls s))) by (apply keeps_insert; congruence).
    apply (inv_polls s); cbn; try done.
    + intros r' Hr. apply elem_of_app in Hr as [Hr|Hr]; [apply K; by apply (i_resp _ I)|]. apply elem_of_list_singleton in Hr as [= ->].
      unfold over. rewrite (i_send _ I _ _ Ep). apply list_lookup_insert. by eapply lookup_lt_Some.
    + intros p' r' Hp. apply list_lookup_insert_Some in Hp as [(_&?&_)|[_ Hp]]; [done|]. by apply (i_send _ I).
  - by apply inv_handler.
  - apply inv_handler; [done|constructor|done].
  - apply inv_handler; [done| |done]. pose proof (i_handler _ I i) as H. rewrite Eh in H. tauto.
  - by apply inv_handler.
Qed.

Lemma inv0 hosts : inv (hr0 hosts).
Proof. constructor; cbn; try done; intros r Hr; by apply elem_of_nil in Hr. Qed.
Lemma inv_steps s tr s' : hrsteps s tr s' → inv s → inv s'.
Proof. induction 1 as [|s a s1 tr s' H1 H2 IH]; [done|]. intros I. apply IH. by eapply inv_step. Qed.
Lemma inv_reaches hosts tr s : reaches hosts tr s → inv s.
Proof. intros H. eapply inv_steps; [exact H|apply inv0]. Qed.

Lemma thm_race hosts tr s a b l : reaches hosts tr s → race_at s a b l → a = ALoop ∧ (∃ i, b = AHandler i) ∧ l = LDur ∧ hr_dur s = 0.
Proof.
  intros R (Hne&Hw&Hb). apply inv_reaches in R as [H1 H2 H3 H4 H5 H6 H7].
  destruct a as [|k|p|i].
  - (* the loop writes *)
    assert (HW : match l with LHosts | LPort _ | LResp _ => False | LSnap n => ∀ j ds, hr_handlers s j ≠ HRead n ds | LDur => hr_dur s = 0 | _ => True end).
    { cbn in Hw. unfold loop_ok in H5. destruct (hr_loop s) as [|[|x ops]|j q n [|x ops]|j n ds|]; cbn in Hw; try by apply elem_of_nil in Hw.
      - apply elem_of_list_singleton in Hw. destruct x as [a|r|d|r|keep|ds]; cbn in Hw; [|congruence|..].
        + subst a. inversion H5 as [|? ? Ho _]; subst. cbn in Ho. by destruct l.
        + injection Hw as ->. tauto.
        + by injection Hw as ->.
        + by injection Hw as ->.
        + by injection Hw as ->.
      - apply elem_of_list_singleton in Hw. destruct H5 as (_&Hl&Ho). inversion Hl as [|? ? Hx _]; subst. destruct x as [a|r|d|r|keep|ds]; cbn in Hx, Hw; try done.
        subst a. cbn in Hx. subst l. done. }
    assert (Hb' : ∃ x, x ∈ accs s b ∧ (x = Wr l ∨ x = Rd l)) by (destruct Hb; eauto). destruct Hb' as (x&Hx&Hxl). clear Hb.
    destruct b as [|k|p|i]; cbn in Hx; [done|..].
    + destruct (hr_rounds s !! k) as [[]|]; cbn in Hx; try by apply elem_of_nil in Hx. apply elem_of_list_singleton in Hx as ->. destruct Hxl as [?|[= <-]]; [congruence|done].
    + destruct (hr_polls s !! p) as [[]|]; cbn in Hx; try (by apply elem_of_nil in Hx).
      * apply elem_of_list_singleton in Hx as ->. destruct Hxl as [?|[= <-]]; [congruence|done].
      * apply elem_of_list_singleton in Hx as ->. destruct Hxl as [[= <-]|?]; [done|congruence].
    + destruct (hr_handlers s i) as [| |n ds|ds] eqn:Eh; cbn in Hx; try by apply elem_of_nil in Hx.
      * exfalso. apply elem_of_list_In in Hx as [<-|[<-|[]]]; (destruct Hxl as [E|E]; [try congruence|try congruence]); injection E as <-; by apply (HW i ds).
      * apply elem_of_list_singleton in Hx as ->. destruct Hxl as [?|[= <-]]; [congruence|]. eauto.
  - (* a round writes nothing *)
    exfalso. cbn in Hw. destruct (hr_rounds s !! k) as [[]|]; cbn in Hw; try by apply elem_of_nil in Hw. by apply elem_of_list_singleton in Hw.
  - (* a poll writes its response *)
    exfalso. cbn in Hw. destruct (hr_polls s !! p) as [[| | |]|] eqn:Ep; cbn in Hw; try (by apply elem_of_nil in Hw).
    + by apply elem_of_list_singleton in Hw.
    + apply elem_of_list_singleton in Hw as [= ->]. destruct b as [|k|p'|i].
      * cbn in Hb. unfold loop_ok in H5. destruct (hr_loop s) as [|[|x ops]|j q n [|x ops]|j n ds|]; cbn in Hb; try by destruct Hb as [Hb|Hb]; apply elem_of_nil in Hb.
        -- rewrite !elem_of_list_singleton in Hb. destruct x as [a|r|d|r|keep|ds]; cbn in Hb; try by destruct Hb.
           inversion H5 as [|? ? Ho _]; subst. destruct Hb as [<-|<-]; cbn in Ho; [done|congruence].
        -- rewrite !elem_of_list_singleton in Hb. destruct H5 as (_&Hl&_). inversion Hl as [|? ? Hx _]; subst. destruct x as [a|r|d|r|keep|ds]; cbn in Hx, Hb; try done.
           destruct Hb as [<-|<-]; cbn in Hx; done.
      * cbn in Hb. destruct (hr_rounds s !! k) as [[]|]; cbn in Hb; (destruct Hb as [Hb|Hb]; [|]); try (by apply elem_of_nil in Hb); by apply elem_of_list_singleton in Hb.
      * cbn in Hb. destruct (hr_polls s !! p') as [[]|]; cbn in Hb; (destruct Hb as [Hb|Hb]; [|]); try (by apply elem_of_nil in Hb); apply elem_of_list_singleton in Hb; congruence.
      * cbn in Hb. destruct (hr_handlers s i); cbn in Hb; (destruct Hb as [Hb|Hb]; [|]); apply elem_of_list_In in Hb; cbn in Hb; naive_solver.
  - (* a handler writes to its snapshot *)
    exfalso. cbn in Hw. destruct (hr_handlers s i) as [| |n ds|ds] eqn:Eh; cbn in Hw; try by apply elem_of_nil in Hw.
    + apply elem_of_list_In in Hw as [Hw|[Hw|[]]]; [done|]. injection Hw as <-. destruct b as [|k|p'|i'].
      * cbn in Hb. unfold loop_ok in H5. destruct (hr_loop s) as [|[|x ops]|j q n' [|x ops]|j n' ds'|]; cbn in Hb; try by destruct Hb as [Hb|Hb]; apply elem_of_nil in Hb.
        -- rewrite !elem_of_list_singleton in Hb. destruct x as [a|r|d|r|keep|ds']; cbn in Hb; try by destruct Hb.
           inversion H5 as [|? ? Ho _]; subst. destruct Hb as [<-|<-]; cbn in Ho; done.
        -- rewrite !elem_of_list_singleton in Hb. destruct H5 as (_&Hl&Ho). inversion Hl as [|? ? Hx _]; subst. destruct x as [a|r|d|r|keep|ds']; cbn in Hx, Hb; try done.
           destruct Hb as [<-|<-]; cbn in Hx; [injection Hx as ->; by apply (Ho i ds)|done].
      * cbn in Hb. destruct (hr_rounds s !! k) as [[]|]; cbn in Hb; (destruct Hb as [Hb|Hb]; [|]); try (by apply elem_of_nil in Hb); by apply elem_of_list_singleton in Hb.
      * cbn in Hb. destruct (hr_polls s !! p') as [[]|]; cbn in Hb; (destruct Hb as [Hb|Hb]; [|]); try (by apply elem_of_nil in Hb); apply elem_of_list_singleton in Hb; congruence.
      * cbn in Hb. destruct (hr_handlers s i') as [| |n' ds'|ds'] eqn:Eh'; cbn in Hb; (destruct Hb as [Hb|Hb]; [|]); apply elem_of_list_In in Hb; cbn in Hb.
        all: try (exfalso; naive_solver); assert (n' = n) as -> by naive_solver; by destruct Hne; f_equal; eapply H7.
    + by apply elem_of_list_singleton in Hw.
Qed.

(** the duration is set once *)
Lemma dur_step s a s' : hrstep s a s' → inv s → hr_dur s ≠ 0 → hr_dur s' = hr_dur s.
Proof.
  intros St I Hd. destruct St as [| | | | |s x l E| | | | | | | | | | | |]; cbn; try done. destruct x; cbn; try done.
  pose proof (i_loop _ I) as H. unfold loop_ok in H. rewrite E in H. by destruct H.
Qed.
Lemma thm_dur_kept hosts tr s tr' s' : reaches hosts tr s → hr_dur s ≠ 0 → hrsteps s tr' s' → hr_dur s' = hr_dur s.
Proof.
  intros R Hd H. apply inv_reaches in R. induction H as [|s a s1 tr' s' H1 H2 IH]; [done|].
  pose proof (dur_step _ _ _ H1 R Hd) as E. rewrite <- E. apply IH; [by eapply inv_step|congruence].
Qed.
Lemma page_steps s tr s' : hrsteps s tr s' → inv s → ∀ i ds d, HPage i ds d ∈ tr → ∀ d', d' ∈ ds → d' = d ∧ d ≠ 0.
Proof.
  induction 1 as [|s a s1 tr s' H1 H2 IH]; intros I i ds d Hp d' Hd; [by apply elem_of_nil in Hp|].
  apply elem_of_cons in Hp as [<-|Hp]; [|by eapply IH; [eapply inv_step| |]].
  inversion H1 as [| | | | | | | | | | | | | | | | |? ? ? E Eh]; subst. pose proof (i_handler _ I i) as H. rewrite Eh in H.
  by apply (proj1 (Forall_forall _ _) H).
Qed.
Lemma thm_page hosts tr s i ds d : reaches hosts tr s → HPage i ds d ∈ tr → ∀ d', d' ∈ ds → d' = d ∧ d ≠ 0.
Proof. intros R. exact (page_steps _ _ _ R (inv0 hosts) i ds d). Qed.

(** ** The race *)
Local Tactic Notation "hr_go" uconstr(c) := eapply Hrs_cons; [eapply c; cbn; first [reflexivity | done] | cbn].
Lemma hrsteps_app s1 tr1 s2 tr2 s3 : hrsteps s1 tr1 s2 → hrsteps s2 tr2 s3 → hrsteps s1 (tr1 ++ tr2) s3.
Proof. induction 1 as [|s a s' tr s'' H1 H2 IH]; [done|]. intros H3. cbn. econstructor; [done|]. by apply IH. Qed.
(** handler 3 got its page before any poll was answered, and is about to read the duration *)
Lemma hr_race : ∃ tr s, reaches 1 tr s ∧ race_at s ALoop (AHandler 3) LDur.
Proof.
  eexists _, _. split.
  - unfold reaches, hr0. 
    hr_go (Hr_ask _ 3 QIntervals). hr_go (Hr_serve _ 3 QIntervals). do 3 hr_go Hr_make. hr_go Hr_made. hr_go Hr_send. hr_go (Hr_read _ 3).
    hr_go (Hr_round _ 0). hr_go (Hr_port _ 0 0). hr_go (Hr_fill _ 0 0 true 60). hr_go (Hr_push _ 0). hr_go Hr_take. do 5 hr_go Hr_do. constructor.
  - split; [done|]. cbn. split; [by left|]. right. by left.
Qed.
(** handler 3's page has a duration but no intervals; handler 4's has both *)
Lemma hr_pages : ∃ tr s, reaches 1 tr s ∧ HPage 3 [] 60 ∈ tr ∧ HPage 4 [60] 60 ∈ tr.
Proof.
  eexists _, _. split.
  - unfold reaches, hr0.
    hr_go (Hr_ask _ 3 QIntervals). hr_go (Hr_serve _ 3 QIntervals). do 3 hr_go Hr_make. hr_go Hr_made. hr_go Hr_send. hr_go (Hr_read _ 3).
    hr_go (Hr_round _ 0). hr_go (Hr_port _ 0 0). hr_go (Hr_fill _ 0 0 true 60). hr_go (Hr_push _ 0). hr_go Hr_take. do 6 hr_go Hr_do.
    hr_go (Hr_page _ 3). do 6 hr_go Hr_do.
    eapply Hrs_cons; [eapply (Hr_nil _ 0 [0%nat]); cbn; [done|done|by intros p ->%elem_of_list_singleton]|cbn].
    eapply Hrs_cons; [eapply (Hr_take_nil _ _ [60]); cbn; done|cbn]. do 9 hr_go Hr_do.
    hr_go (Hr_ask _ 4 QIntervals). hr_go (Hr_serve _ 4 QIntervals). do 3 hr_go Hr_make. hr_go Hr_made. hr_go Hr_send. hr_go (Hr_read _ 4). hr_go (Hr_page _ 4). constructor.
  - split; apply elem_of_list_In; cbn; tauto.
Qed.
