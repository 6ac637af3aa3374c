(** * Proofs: error samples as pointers (C14) *)
From Verif Require Import SErrors PAgg PContent.

Lemma erun_snoc ops : ∀ s a, erun s (ops ++ [a]) = s' ← erun s ops; estep s' a.
Proof.
  induction ops as [|b ops IH]; intros s a; cbn.
  - by destruct (estep s a).
  - destruct (estep s b); [|done]. cbn. apply IH.
Qed.
Lemma erun_ind (I : list eop → est → Prop) :
  I [] est0 → (∀ ops s a s', erun est0 ops = Some s → I ops s → estep s a = Some s' → I (ops ++ [a]) s') →
  ∀ ops s, erun est0 ops = Some s → I ops s.
Proof.
  intros H0 HS ops. induction ops as [|a ops IH] using rev_ind; intros s E.
  - cbn in E. by injection E as <-.
  - rewrite erun_snoc in E. destruct (erun est0 ops) as [s1|] eqn:E1; [|done]. cbn in E. eauto.
Qed.

(** pointers as MAgg's errors, to use what is known of the ring *)
Definition enc (l : nat) : err := Err "" [N.of_nat l].
Definition dec (e : err) : nat := match err_stack e with [n] => N.to_nat n | _ => 0%nat end.
Lemma dec_enc l : dec (enc l) = l.
Proof. unfold dec, enc. cbn. apply Nat2N.id. Qed.
Lemma enc_inj a b : enc a = enc b → a = b.
Proof. intros H. by rewrite <-(dec_enc a), <-(dec_enc b), H. Qed.
Definition emb (ec : pcounter) : errc := Errc (pc_count ec) (map (fmap enc) (pc_samples ec)) (pc_index ec).

Lemma emb_samples ec : get_error_samples (emb ec) = map enc (p_samples ec).
Proof.
  unfold get_error_samples, p_samples, emb. cbn [ec_samples]. induction (pc_samples ec) as [|[l|] q IH]; cbn; [done| |done]. by f_equal.
Qed.
Lemma last_map {A B} (f : A → B) l : last (map f l) = f <$> last l.
Proof. induction l as [|x [|y l] IH]; [done|done|]. exact IH. Qed.

Lemma map_insert {A B} (f : A → B) l i x : map f (<[i := x]> l) = <[i := f x]> (map f l).
Proof. apply list_fmap_insert. Qed.

(** adding an error that is not taken for the last one *)
Lemma p_add_new h ec ds e : ring (map enc ds) (emb ec) →
  (∀ l, last ds = Some l → deep_equal h l e = false) → ring (map enc (ds ++ [e])) (emb (p_add_error h ec e)).
Proof.
  intros HR Hl. assert (∀ l, last ds = Some l → l ≠ e) as Hne.
  { intros l H ->. specialize (Hl e H). unfold deep_equal in Hl. by rewrite bool_decide_true in Hl by done. }
  assert (emb (p_add_error h ec e) = add_error (emb ec) (Some (enc e))) as ->.
  { unfold p_add_error, add_error. cbn [emb ec_samples ec_index]. rewrite list_lookup_fmap.
    destruct (pc_samples ec !! pc_index ec) as [[l|]|] eqn:El; cbn.
    - assert (last ds = Some l) as Hlast.
      { destruct HR as [Hlen Hidx Hval Hnil]. cbn in *. rewrite map_length in *.
        destruct (decide (ds = [])) as [->|Hd].
        - specialize (Hnil 0%nat ltac:(cbn; lia)). cbn in Hidx. rewrite Hidx in El. rewrite list_lookup_fmap, El in Hnil. done.
        - assert (0 < length ds)%nat by (destruct ds; cbn; [done|lia]).
          destruct (lookup_lt_is_Some_2 ds (length ds - 1) ltac:(lia)) as [y Hy].
          specialize (Hval (length ds - 1)%nat (enc y)). rewrite list_lookup_fmap, Hy in Hval. specialize (Hval eq_refl ltac:(lia)).
          rewrite <-Hidx, list_lookup_fmap, El in Hval. cbn in Hval. injection Hval as Hval. apply (f_equal N.to_nat) in Hval. rewrite !Nat2N.id in Hval. subst y.
          rewrite last_lookup. by replace (pred (length ds)) with (length ds - 1)%nat by lia. }
      rewrite (Hl l Hlast). rewrite bool_decide_false by (intros [= H]; apply (f_equal N.to_nat) in H; rewrite !Nat2N.id in H; by apply (Hne l)).
      unfold emb. cbn. f_equal; [|by rewrite map_length]. rewrite map_length. exact (map_insert (fmap enc) (pc_samples ec) _ (Some e)).
    - unfold emb. cbn. f_equal. exact (map_insert (fmap enc) (pc_samples ec) _ (Some e)).
    - unfold emb. cbn. f_equal. exact (map_insert (fmap enc) (pc_samples ec) _ (Some e)). }
  apply (ring_step _ _ (enc e)) in HR. rewrite last_map in HR. rewrite decide_False in HR; [by rewrite map_app|].
  destruct (last ds) as [l|]; [|done]. cbn. intros [= H]. apply (f_equal N.to_nat) in H. rewrite !Nat2N.id in H. by apply (Hne l).
Qed.
Lemma p_add_known h ec ds e l : ring (map enc ds) (emb ec) → last ds = Some l → deep_equal h l e = true → p_add_error h ec e = ec.
Proof.
  intros HR Hl Hd. unfold p_add_error. destruct HR as [Hlen Hidx Hval Hnil]. cbn in *. rewrite map_length in *.
  assert (0 < length ds)%nat by (destruct ds; cbn; [done|lia]).
  rewrite last_lookup in Hl. replace (pred (length ds)) with (length ds - 1)%nat in Hl by lia.
  specialize (Hval (length ds - 1)%nat (enc l)). rewrite list_lookup_fmap, Hl in Hval. specialize (Hval eq_refl ltac:(lia)).
  rewrite <-Hidx, list_lookup_fmap in Hval. destruct (pc_samples ec !! pc_index ec) as [[l'|]|]; cbn in Hval; [|done|done].
  injection Hval as Hval. apply (f_equal N.to_nat) in Hval. rewrite !Nat2N.id in Hval. subst l'. by rewrite Hd.
Qed.

(** steps do not change what an error is *)
Lemma what_step s a s' l : estep s a = Some s' → is_Some (what s l) → what s' l = what s l.
Proof.
  unfold what. intros E [c Hc]. destruct (es_heap s !! l) as [o|] eqn:El; [|done]. clear Hc c.
  assert (Hset : ∀ l' o', es_heap s !! l' = Some o' → ∀ o2, contents o2 = contents o' → contents <$> <[l':=o2]> (es_heap s) !! l = contents <$> Some o).
  { intros l' o' El' o2 Hc. destruct (decide (l = l')) as [->|Hne].
    - rewrite list_lookup_insert by (by eapply lookup_lt_Some). rewrite El in El'. injection El' as ->. cbn. by rewrite Hc.
    - by rewrite list_lookup_insert_ne, El by done. }
  destruct a as [x t|x|l'|l'|l'|]; cbn in E.
  - injection E as <-. cbn. by rewrite (lookup_app_l_Some _ _ _ _ El).
  - injection E as <-. cbn. by rewrite (lookup_app_l_Some _ _ _ _ El).
  - destruct (es_heap s !! l'); [|done]. injection E as <-. cbn. by rewrite El.
  - destruct (es_heap s !! l') as [[|x t f m]|] eqn:El'; [|..|done]; injection E as <-; [by rewrite El|]. cbn. by eapply Hset.
  - destruct (es_heap s !! l') as [[|x t f m]|] eqn:El'; [done| |done]. injection E as <-. cbn. by eapply Hset.
  - destruct (es_queue s); [done|]. injection E as <-. cbn. by rewrite El.
Qed.
Lemma deep_same s a b : deep_equal (es_heap s) a b = true → what s a = what s b.
Proof.
  unfold deep_equal, what. case_bool_decide as H; [by subst|]. destruct (es_heap s !! a) as [[]|], (es_heap s !! b) as [[]|]; try done; cbn.
  - intros H1. apply bool_decide_eq_true in H1. by subst.
  - rewrite !andb_true_iff. intros [[[H1 H2] _] _]. apply bool_decide_eq_true in H1, H2. by subst.
Qed.

Definition takes (ops : list eop) : nat := length (filter (λ a, a = ETake) ops).
Lemma takes_snoc ops a : takes (ops ++ [a]) = (takes ops + if decide (a = ETake) then 1 else 0)%nat.
Proof. unfold takes. rewrite filter_app, app_length, filter_cons. by destruct (decide _). Qed.
Lemma queued_snoc ops a : queued (ops ++ [a]) = queued ops ++ match a with ESend l => [l] | _ => [] end.
Proof. unfold queued. rewrite omap_app. by destruct a. Qed.

(** no stack resolved *)
Definition unframed (s : est) : Prop := ∀ l x t f m, es_heap s !! l = Some (PUnmuted x t f m) → f = false.
Lemma settled_snoc ops a : settled (ops ++ [a]) → settled ops.
Proof.
  intros [H1 H2]. split.
  - intros l Hl. apply (H1 l). apply elem_of_app. by left.
  - intros ops1 ops2 s l q ->. apply (H2 ops1 (ops2 ++ [a])). by rewrite <-app_assoc.
Qed.
Lemma unframed_step s a s' : estep s a = Some s' → (∀ l, a ≠ EFrames l) → unframed s → unframed s'.
Proof.
  intros E Ha HU l x t f m Hl. destruct a as [y u|y|k|k|k|]; cbn in E.
  - injection E as <-. cbn in Hl. apply lookup_app_Some in Hl as [Hl|(_&Hl)]; [by eapply HU|]. apply list_lookup_singleton_Some in Hl as [_ [= _ _ <- _]]. done.
  - injection E as <-. cbn in Hl. apply lookup_app_Some in Hl as [Hl|(_&Hl)]; [by eapply HU|]. by apply list_lookup_singleton_Some in Hl as [_ Hl].
  - destruct (es_heap s !! k); [|done]. injection E as <-. by eapply HU.
  - destruct (es_heap s !! k) as [[|y u g n]|] eqn:Ek; [by injection E as <-; eapply HU| |done]. injection E as <-. cbn in Hl.
    apply list_lookup_insert_Some in Hl as [(<-&[= <- <- <- <-]&_)|(Hne&Hl)]; by eapply HU.
  - by destruct (Ha k).
  - destruct (es_queue s); [done|]. injection E as <-. by eapply HU.
Qed.
Lemma marked_step s a s' l : estep s a = Some s' → marked s l → marked s' l.
Proof.
  unfold marked. intros E. destruct (es_heap s !! l) as [o|] eqn:El; [|done].
  destruct a as [y u|y|k|k|k|]; cbn in E.
  - injection E as <-. cbn. by rewrite (lookup_app_l_Some _ _ _ _ El).
  - injection E as <-. cbn. by rewrite (lookup_app_l_Some _ _ _ _ El).
  - destruct (es_heap s !! k); [|done]. injection E as <-. cbn. by rewrite El.
  - destruct (es_heap s !! k) as [[|y u g n]|] eqn:Ek; [by injection E as <-; rewrite El| |done]. injection E as <-. cbn.
    destruct (decide (k = l)) as [->|Hne]; [by rewrite list_lookup_insert by (by eapply lookup_lt_Some)|by rewrite list_lookup_insert_ne, El by done].
  - destruct (es_heap s !! k) as [[|y u g n]|] eqn:Ek; [done| |done]. injection E as <-. cbn.
    destruct (decide (k = l)) as [->|Hne]; [|by rewrite list_lookup_insert_ne, El by done].
    rewrite El in Ek. injection Ek as ->. by rewrite list_lookup_insert by (by eapply lookup_lt_Some).
  - destruct (es_queue s); [done|]. injection E as <-. cbn. by rewrite El.
Qed.
Lemma settled_deep s a b : unframed s → marked s a → marked s b → what s a = what s b → deep_equal (es_heap s) a b = true.
Proof.
  unfold marked, what, deep_equal. intros HU. case_bool_decide; [done|]. destruct (es_heap s !! a) as [[x|x t f m]|] eqn:Ea, (es_heap s !! b) as [[y|y u g n]|] eqn:Eb; try done; cbn.
  - intros _ _ [= ->]. by rewrite bool_decide_true.
  - intros -> -> [= -> ->]. rewrite (HU _ _ _ _ _ Ea), (HU _ _ _ _ _ Eb), !bool_decide_true by done. done.
Qed.

Record einv (ops : list eop) (s : est) : Prop := {
  e_q : es_queue s = drop (takes ops) (queued ops);
  e_n : (takes ops ≤ length (queued ops))%nat;
  e_heap : ∀ l, l ∈ queued ops → is_Some (what s l);
  e_count : pc_count (es_ec s) = i64 (length (counted_errs ops));
  e_ring : ∃ ds, ring (map enc ds) (emb (es_ec s)) ∧ thinned (map (what s) (counted_errs ops)) (map (what s) ds) ∧
     (∀ l, l ∈ ds → l ∈ counted_errs ops) ∧ what s <$> last ds = what s <$> last (counted_errs ops) ∧
     (settled ops → map (what s) ds = squash (map (what s) (counted_errs ops)) ∧ Forall (marked s) ds ∧ unframed s) }.

Lemma counted_in ops l : l ∈ counted_errs ops → l ∈ queued ops.
Proof. unfold counted_errs. intros H. apply elem_of_take in H as (i&H&_). by eapply elem_of_list_lookup_2. Qed.
Lemma counted_other ops a s s' : erun est0 ops = Some s → einv ops s → estep s a = Some s' → a ≠ ETake →
  counted_errs (ops ++ [a]) = counted_errs ops.
Proof.
  intros _ HI _ Ha. unfold counted_errs. fold (takes (ops ++ [a])) (takes ops). rewrite takes_snoc, decide_False, queued_snoc, Nat.add_0_r by done.
  apply take_app_le. apply (e_n _ _ HI).
Qed.
Lemma einv_run : ∀ ops s, erun est0 ops = Some s → einv ops s.
Proof.
  apply erun_ind.
  - split; try done; [by intros l Hl; apply elem_of_nil in Hl|]. exists []. split_and!; [apply (ring0 0)|constructor|done|done|]. intros _. split_and!; [done|constructor|]. by intros l x t f m Hl.
  - intros ops s a s' Hrun HI E. pose proof (what_step s a s') as Hw.
    assert (Hheap : ∀ l, l ∈ queued ops → what s' l = what s l) by (intros l Hl; apply Hw; [done|by apply (e_heap _ _ HI)]).
    destruct (decide (a = ETake)) as [->|Ha].
    + cbn in E. destruct (es_queue s) as [|l q] eqn:Eq; [done|]. injection E as <-. pose proof (e_q _ _ HI) as Hq. rewrite Eq in Hq.
      assert (queued ops !! takes ops = Some l) as Hl.
      { rewrite <-(Nat.add_0_r (takes ops)). rewrite <-lookup_drop, <-Hq. done. }
      assert (counted_errs (ops ++ [ETake]) = counted_errs ops ++ [l]) as HC.
      { unfold counted_errs. fold (takes (ops ++ [ETake])) (takes ops). rewrite takes_snoc, decide_True, queued_snoc, app_nil_r, Nat.add_1_r by done. by apply take_S_r. }
      assert (l ∈ queued ops) as Hin by (by eapply elem_of_list_lookup_2).
      split; cbn [es_queue es_heap es_ec]; rewrite ?takes_snoc, ?queued_snoc, ?app_nil_r, ?decide_True by done; try rewrite HC.
      * rewrite Nat.add_1_r, <-Nat.add_1_r, <-drop_drop, <-Hq. done.
      * apply lookup_lt_Some in Hl. lia.
      * intros l' Hl'. apply (e_heap _ _ HI l' Hl').
      * unfold p_increment. assert (∀ h c e, pc_count (p_add_error h c e) = pc_count c) as -> by (intros h c e; unfold p_add_error; repeat case_match; done).
        cbn. rewrite (e_count _ _ HI), app_length. unfold i64. rewrite w64_add_l. cbn. f_equal. lia.
      * destruct (e_ring _ _ HI) as (ds&HR&HT&HD&HL&HS). unfold p_increment. set (ec1 := PCounter (w64 (pc_count (es_ec s) + 1)) (pc_samples (es_ec s)) (pc_index (es_ec s))).
        assert (ring (map enc ds) (emb ec1)) as HR1 by (apply (ring_count _ _ (w64 (pc_count (es_ec s) + 1))) in HR; exact HR).
        change (what (Est (es_heap s) q (p_add_error (es_heap s) ec1 l))) with (what s).
        rewrite map_app, last_snoc. cbn [map fmap option_fmap option_map].
        assert (Hsq : settled (ops ++ [ETake]) → marked s l ∧ map (what s) ds = squash (map (what s) (counted_errs ops)) ∧ Forall (marked s) ds ∧ unframed s).
        { intros Hs. split; [by eapply (proj2 Hs ops [])|]. apply HS. by eapply settled_snoc. }
        assert (Hlast : last (map (what s) (counted_errs ops)) = what s <$> last ds) by (by rewrite last_map).
        change (marked (Est (es_heap s) q (p_add_error (es_heap s) ec1 l))) with (marked s).
        change (unframed (Est (es_heap s) q (p_add_error (es_heap s) ec1 l))) with (unframed s).
        destruct (last ds) as [k|] eqn:Ek; [destruct (deep_equal (es_heap s) k l) eqn:Ed|].
        -- exists ds. rewrite (p_add_known _ _ _ _ k HR1 Ek Ed). split_and!; [done| | | |].
           ++ apply Th_drop; [done|]. rewrite last_map. cbn in HL. rewrite <-HL. cbn. f_equal. by apply deep_same.
           ++ intros l' Hl'. apply elem_of_app. left. by apply HD.
           ++ rewrite Ek. cbn. f_equal. by apply deep_same.
           ++ intros Hs. destruct (Hsq Hs) as (S1&S2&S3&S4). split_and!; [|done..]. rewrite squash_snoc, Hlast, decide_True; [done|]. cbn. f_equal. by apply deep_same.
        -- exists (ds ++ [l]). split_and!.
           ++ apply p_add_new; [done|]. intros l'. rewrite Ek. by intros [= <-].
           ++ rewrite map_app. by apply Th_keep.
           ++ intros l' Hl'. apply elem_of_app in Hl' as [H|H]; apply elem_of_app; [left; by apply HD|by right].
           ++ by rewrite last_snoc.
           ++ intros Hs. destruct (Hsq Hs) as (S1&S2&S3&S4). split_and!; [|by apply Forall_app; repeat constructor|done].
              rewrite map_app, squash_snoc, Hlast, decide_False; [by rewrite S2|]. cbn. intros [= He].
              rewrite (settled_deep s k l) in Ed; try done. apply last_Some_elem_of in Ek. by eapply Forall_forall in S3.
        -- exists (ds ++ [l]). split_and!.
           ++ apply p_add_new; [done|]. intros l'. by rewrite Ek.
           ++ rewrite map_app. by apply Th_keep.
           ++ intros l' Hl'. apply elem_of_app in Hl' as [H|H]; apply elem_of_app; [left; by apply HD|by right].
           ++ by rewrite last_snoc.
           ++ intros Hs. destruct (Hsq Hs) as (S1&S2&S3&S4). split_and!; [|by apply Forall_app; repeat constructor|done].
              by rewrite map_app, squash_snoc, Hlast, decide_False, S2.
    + pose proof (counted_other ops a s s' Hrun HI E Ha) as HC.
      assert (Hec : es_ec s' = es_ec s).
      { clear -E Ha. destruct a; cbn in E; try done; try (by injection E as <-); destruct (es_heap s !! l) as [[]|]; try done; by injection E as <-. }
      assert (Hq : es_queue s' = es_queue s ++ match a with ESend l => [l] | _ => [] end).
      { clear -E Ha. destruct a; cbn in E; rewrite ?app_nil_r; try done; try (by injection E as <-); destruct (es_heap s !! l) as [[]|]; try done; by injection E as <-. }
      assert (Hmap : ∀ ls, (∀ l, l ∈ ls → l ∈ queued ops) → map (what s') ls = map (what s) ls).
      { intros ls Hls. apply map_ext_in. intros l Hl. apply Hheap, Hls. by apply elem_of_list_In. }
      split; rewrite ?takes_snoc, ?queued_snoc, ?decide_False, ?Nat.add_0_r by done; rewrite ?HC.
      * rewrite Hq, (e_q _ _ HI). symmetry. apply drop_app_le. apply (e_n _ _ HI).
      * rewrite app_length. pose proof (e_n _ _ HI). lia.
      * intros l Hl. apply elem_of_app in Hl as [Hl|Hl]; [rewrite Hheap by done; by apply (e_heap _ _ HI)|].
        destruct a; try (by apply elem_of_nil in Hl). apply elem_of_list_singleton in Hl as ->. cbn in E. destruct (es_heap s !! l0) eqn:El; [|done]. injection E as <-.
        unfold what. cbn. rewrite El. by eexists.
      * rewrite Hec. apply (e_count _ _ HI).
      * destruct (e_ring _ _ HI) as (ds&HR&HT&HD&HL&HS). exists ds. rewrite Hec.
        rewrite (Hmap (counted_errs ops)), (Hmap ds) by (intros; apply counted_in; auto).
        split_and!; [done..| |].
        -- rewrite <-!last_map, (Hmap (counted_errs ops)), (Hmap ds) by (intros; apply counted_in; auto). by rewrite !last_map.
        -- intros Hs. destruct HS as (S1&S2&S3); [by eapply settled_snoc|]. split_and!; [done| |].
           ++ eapply Forall_impl; [exact S2|]. intros l. by apply (marked_step s a).
           ++ eapply unframed_step; [done| |done]. intros l ->. apply (proj1 Hs l). apply elem_of_app. right. by left.
Qed.

Lemma enc_perm xs ys : map enc xs ≡ₚ map enc ys → xs ≡ₚ ys.
Proof.
  intros H. apply (fmap_Permutation dec) in H. assert (∀ zs, dec <$> map enc zs = zs) as Hz.
  { intros zs. induction zs as [|z zs IH]; [done|]. cbn. rewrite Nat2N.id. f_equal. exact IH. }
  by rewrite !Hz in H.
Qed.

Lemma thm_samples ops s : erun est0 ops = Some s →
  pc_count (es_ec s) = i64 (length (counted_errs ops)) ∧ (length (p_samples (es_ec s)) ≤ 5)%nat ∧
  (∀ l, l ∈ p_samples (es_ec s) → l ∈ counted_errs ops) ∧
  (∀ l, last (counted_errs ops) = Some l → ∃ l', l' ∈ p_samples (es_ec s) ∧ what s l' = what s l) ∧
  ∃ ys, thinned (map (what s) (counted_errs ops)) ys ∧ map (what s) (p_samples (es_ec s)) ≡ₚ lastn 5 ys.
Proof.
  intros H. apply einv_run in H as HI. destruct (e_ring _ _ HI) as (ds&HR&HT&HD&HL&HS).
  pose proof (ring_samples _ _ HR) as HP. rewrite emb_samples, lastn_map in HP. apply enc_perm in HP.
  split; [apply (e_count _ _ HI)|]. split. { rewrite HP, lastn_length. lia. }
  split. { intros l Hl. rewrite HP in Hl. apply HD. by eapply elem_of_lastn. }
  split.
  - intros l Hl. rewrite Hl in HL. destruct (last ds) as [k|] eqn:Ek; [|done]. exists k. split; [|cbn in HL; congruence].
    rewrite HP. apply last_Some_elem_of. by rewrite lastn_last by lia.
  - exists (map (what s) ds). split; [done|]. by rewrite HP, lastn_map.
Qed.

Lemma thm_settled ops s : erun est0 ops = Some s → settled ops →
  map (what s) (p_samples (es_ec s)) ≡ₚ lastn 5 (squash (map (what s) (counted_errs ops))).
Proof.
  intros H Hs. apply einv_run in H as HI. destruct (e_ring _ _ HI) as (ds&HR&HT&HD&HL&HS).
  pose proof (ring_samples _ _ HR) as HP. rewrite emb_samples, lastn_map in HP. apply enc_perm in HP.
  destruct (HS Hs) as (S1&_). by rewrite <-S1, HP, lastn_map.
Qed.
(** settledness, by computation *)
Definition marked_b (s : est) (l : nat) : bool :=
  match es_heap s !! l with Some (PUnmuted _ _ _ m) => m | Some (PMuted _) => true | None => false end.
Fixpoint settled_from (s : est) (ops : list eop) : bool :=
  match ops with
  | [] => true
  | a :: ops =>
      match a with ETake => match es_queue s with l :: _ => marked_b s l | [] => true end | _ => true end &&
      match estep s a with Some s => settled_from s ops | None => true end
  end.
Lemma settled_of ops : forallb (λ a, match a with EFrames _ => false | _ => true end) ops = true → settled_from est0 ops = true → settled ops.
Proof.
  intros HF H. split.
  - intros l Hl. apply elem_of_list_In in Hl. by apply (proj1 (forallb_forall _ _) HF) in Hl.
  - intros ops1 ops2 s l q ->. clear HF. revert H. generalize est0. induction ops1 as [|a ops1 IH]; intros s0 H E Eq.
    + cbn in E. injection E as ->. cbn in H. rewrite Eq in H. apply andb_true_iff in H as [H _]. unfold marked_b in H. unfold marked.
      by destruct (es_heap s !! l) as [[]|].
    + cbn in E, H. apply andb_true_iff in H as [_ H]. destruct (estep s0 a) as [s1|]; [|done]. cbn in E. by eapply IH.
Qed.

(** ** Executions *)
(** one goroutine reports the same thing twice; the sink's goroutine counts the
    second report before it is over *)
Definition er_quick : list eop :=
  [EWrap "boom" [7%N; 9%N]; ESend 0; EMark 0; ETake; EWrap "boom" [7%N; 9%N]; ESend 1; ETake; EMark 1].
(** in no hurry, but a Bugsnag sink has resolved the stack of the first *)
Definition er_frames : list eop :=
  [EWrap "boom" [7%N; 9%N]; ESend 0; EMark 0; EFrames 0; ETake; EWrap "boom" [7%N; 9%N]; ESend 1; EMark 1; ETake].
(** reports over before they are counted *)
Definition er_slow : list eop :=
  [EWrap "boom" [7%N]; ESend 0; EMark 0; EWrap "boom" [7%N]; ESend 1; EMark 1; EMute "shh"; ESend 2; EMark 2; ETake; ETake; ETake; ESend 1; EMark 1; ETake].
Lemma er_two_slots ops s : ops = er_quick ∨ ops = er_frames → erun est0 ops = Some s →
  counted_errs ops = [0; 1]%nat ∧ what s 0 = Some (false, "boom", [7%N; 9%N]) ∧ what s 1 = what s 0 ∧ p_samples (es_ec s) = [0; 1]%nat.
Proof. intros [-> | ->] E; vm_compute in E; injection E as <-; vm_compute; auto. Qed.
Lemma er_runs : is_Some (erun est0 er_quick) ∧ is_Some (erun est0 er_frames) ∧ is_Some (erun est0 er_slow).
Proof. split_and!; vm_compute; by eexists. Qed.
Lemma thm_slot_refuted : ∃ ops s, erun est0 ops = Some s ∧ (∀ l, EFrames l ∉ ops) ∧
  counted_errs ops = [0; 1]%nat ∧ what s 1 = what s 0 ∧ p_samples (es_ec s) = [0; 1]%nat.
Proof.
  destruct er_runs as ([s E]&_). exists er_quick, s. split; [done|]. destruct (er_two_slots er_quick s) as (?&?&?&?); [by left|done|]. split; [|done].
  intros l Hl. unfold er_quick in Hl. repeat (apply elem_of_cons in Hl as [Hl|Hl]; [discriminate Hl|]). by apply elem_of_nil in Hl.
Qed.
Lemma thm_frames_refuted : ∃ ops s, erun est0 ops = Some s ∧
  (∀ ops1 ops2 s l q, ops = ops1 ++ ETake :: ops2 → erun est0 ops1 = Some s → es_queue s = l :: q → marked s l) ∧
  counted_errs ops = [0; 1]%nat ∧ what s 1 = what s 0 ∧ p_samples (es_ec s) = [0; 1]%nat.
Proof.
  destruct er_runs as (_&[s E]&_). exists er_frames, s. split; [done|]. destruct (er_two_slots er_frames s) as (?&?&?&?); [by right|done|]. split; [|done].
  assert (settled_from est0 er_frames = true) as HS by (vm_compute; done). revert HS. clear. generalize er_frames. intros ops.
  intros H ops1 ops2 s l q ->. revert H. generalize est0. induction ops1 as [|a ops1 IH]; intros s0 H E Eq.
  - cbn in E. injection E as ->. cbn in H. rewrite Eq in H. apply andb_true_iff in H as [H _]. unfold marked_b in H. unfold marked.
    by destruct (es_heap s !! l) as [[]|].
  - cbn in E, H. apply andb_true_iff in H as [_ H]. destruct (estep s0 a) as [s1|]; [|done]. cbn in E. by eapply IH.
Qed.

(** ** The flag and the frames *)
Lemma thm_flags : ∀ ops s, erun est0 ops = Some s → ∀ l,
  match es_heap s !! l with
  | Some (PUnmuted _ _ f m) => (f = true ↔ EFrames l ∈ ops) ∧ (m = true ↔ EMark l ∈ ops)
  | Some (PMuted _) => EFrames l ∉ ops
  | None => EFrames l ∉ ops ∧ EMark l ∉ ops ∧ ESend l ∉ ops
  end.
Proof.
  apply (erun_ind (λ ops s, ∀ l, match es_heap s !! l with
    | Some (PUnmuted _ _ f m) => (f = true ↔ EFrames l ∈ ops) ∧ (m = true ↔ EMark l ∈ ops)
    | Some (PMuted _) => EFrames l ∉ ops
    | None => EFrames l ∉ ops ∧ EMark l ∉ ops ∧ ESend l ∉ ops
    end)).
  - intros l. cbn. repeat split; apply not_elem_of_nil.
  - intros ops s a s' _ IH Hs l.
    assert (Hm : ∀ b, b ∈ ops ++ [a] ↔ b ∈ ops ∨ b = a) by (intros b; rewrite elem_of_app, elem_of_list_singleton; done).
    destruct a as [x t|x|k|k|k|]; cbn in Hs.
    + injection Hs as <-. cbn [es_heap]. specialize (IH l). destruct (decide (l < length (es_heap s))%nat) as [H|H].
      * rewrite lookup_app_l by done. destruct (es_heap s !! l) as [[?|? ? f m]|]; setoid_rewrite Hm; naive_solver.
      * rewrite lookup_ge_None_2 in IH by lia. rewrite lookup_app_r by lia.
        destruct (l - length (es_heap s))%nat as [|n]; cbn [lookup list_lookup]; rewrite ?lookup_nil, ?Hm; naive_solver.
    + injection Hs as <-. cbn [es_heap]. specialize (IH l). destruct (decide (l < length (es_heap s))%nat) as [H|H].
      * rewrite lookup_app_l by done. destruct (es_heap s !! l) as [[?|? ? f m]|]; setoid_rewrite Hm; naive_solver.
      * rewrite lookup_ge_None_2 in IH by lia. rewrite lookup_app_r by lia.
        destruct (l - length (es_heap s))%nat as [|n]; cbn [lookup list_lookup]; rewrite ?lookup_nil, ?Hm; naive_solver.
    + destruct (es_heap s !! k) eqn:Hk; [|done]. injection Hs as <-. cbn [es_heap]. specialize (IH l).
      destruct (es_heap s !! l) as [[?|? ? f m]|] eqn:Hl; setoid_rewrite Hm; naive_solver.
    + destruct (es_heap s !! k) as [[x|x t f m]|] eqn:Hk; [| |done]; injection Hs as <-.
      * specialize (IH l). destruct (es_heap s !! l) as [[?|? ? f m]|] eqn:Hl; setoid_rewrite Hm; naive_solver.
      * cbn [es_heap set_obj]. pose proof (lookup_lt_Some _ _ _ Hk). specialize (IH l). destruct (decide (k = l)) as [->|Hn].
        -- rewrite list_lookup_insert by done. rewrite Hk in IH. setoid_rewrite Hm. naive_solver.
        -- rewrite list_lookup_insert_ne by done. destruct (es_heap s !! l) as [[?|? ? f' m']|] eqn:Hl; setoid_rewrite Hm; naive_solver.
    + destruct (es_heap s !! k) as [[x|x t f m]|] eqn:Hk; [done| |done]; injection Hs as <-.
      cbn [es_heap set_obj]. pose proof (lookup_lt_Some _ _ _ Hk). specialize (IH l). destruct (decide (k = l)) as [->|Hn].
      * rewrite list_lookup_insert by done. rewrite Hk in IH. setoid_rewrite Hm. naive_solver.
      * rewrite list_lookup_insert_ne by done. destruct (es_heap s !! l) as [[?|? ? f' m']|] eqn:Hl; setoid_rewrite Hm; naive_solver.
    + destruct (es_queue s) as [|k q]; [done|]. injection Hs as <-. cbn [es_heap]. specialize (IH l).
      destruct (es_heap s !! l) as [[?|? ? f m]|] eqn:Hl; setoid_rewrite Hm; naive_solver.
Qed.
