(** * healthd's goroutines after Stop (C125) *)
From Verif Require Import PFair PHealthdLoop PHealthdLoop2 PHealthdLoopEx PLiveStuck SLive6.

Lemma polls_left_app l1 l2 : polls_left (l1 ++ l2) = (polls_left l1 + polls_left l2)%nat.
Proof. induction l1 as [|[rem|] l1 IH]; cbn; lia. Qed.
Definition left1 (r : option (list string)) : nat := match r with Some rem => S (length rem) | None => 0%nat end.
Lemma polls_left_cons r l : polls_left (r :: l) = (left1 r + polls_left l)%nat.
Proof. by destruct r. Qed.
Lemma polls_left_insert l : ∀ k r r', l !! k = Some r → (polls_left (<[k := r']> l) + left1 r)%nat = (polls_left l + left1 r')%nat.
Proof.
  induction l as [|y l IH]; intros k r r' H; [done|]. destruct k as [|k].
  - injection H as ->. change (<[0%nat := r']> (r :: l)) with (r' :: l). rewrite !polls_left_cons. lia.
  - change (<[S k := r']> (y :: l)) with (y :: <[k := r']> l). rewrite !polls_left_cons. specialize (IH _ _ r' H). lia.
Qed.
Lemma polls_left_some l : polls_left l ≠ 0%nat → ∃ k rem, l !! k = Some (Some rem).
Proof.
  induction l as [|r l IH]; [done|]. intros H. destruct r as [rem|]; [by exists 0%nat, rem|]. destruct IH as (k&rem&E); [done|]. by exists (S k), rem.
Qed.
Lemma polls_left_none l : polls_left l = 0%nat → ∀ k rem, l !! k ≠ Some (Some rem).
Proof.
  induction l as [|r l IH]; [done|]. intros H [|k] rem E; [cbn in E; injection E as ->; cbn in H; lia|]. apply (IH ltac:(destruct r; cbn in H; lia) k rem). done.
Qed.
Lemma remove_length (h : string) l : NoDup l → h ∈ l → S (length (remove string_dec h l)) = length l.
Proof.
  induction 1 as [|j l Hj Hn IH]; [by intros ?%elem_of_nil|]. intros [-> |Hi]%elem_of_cons; cbn.
  - destruct (string_dec j j); [|done]. f_equal. f_equal. apply notin_remove. by rewrite <- elem_of_list_In.
  - destruct (string_dec h j) as [-> |]; [done|]. cbn. by rewrite IH.
Qed.
Lemma nodup_remove (h : string) l : NoDup l → NoDup (remove string_dec h l).
Proof.
  induction 1 as [|j l Hj Hn IH]; [constructor|]. cbn. destruct (string_dec h j) as [-> |]; [done|]. constructor; [|done].
  rewrite elem_of_list_In. intros H%in_remove. destruct H as [H _]. by rewrite <- elem_of_list_In in H.
Qed.
(** the hosts still to answer are different *)
Definition rounds_ok (s : hl) : Prop := ∀ k rem, l_rounds s !! k = Some (Some rem) → NoDup rem.
Lemma after_rounds s r next : (∀ h, l_rounds (next h) = l_rounds s) → l_rounds (after s r next) = l_rounds s.
Proof. intros H. destruct r; cbn; [apply H|done]. Qed.
Lemma rounds_step s a s' : hlstep s a s' → rounds_ok s → rounds_ok s'.
Proof.
  intros St H. unfold rounds_ok in *.
  destruct St; rewrite ?after_rounds by done; cbn; try exact H.
  - (* tick *) intros k rem E. destruct (purge (l_hd s) now); cbn in E; [|by eapply H].
    apply lookup_app_Some in E as [E|[_ E]]; [by eapply H|]. apply elem_of_list_lookup_2, elem_of_list_singleton in E. injection E as ->.
    unfold hosts_of. rewrite <- list_fmap_map || idtac. apply NoDup_fst_map_to_list.
  - intros k' rem' E. apply list_lookup_insert_Some in E as [(->&[= <-]&_)|[_ E]]; [apply nodup_remove|]; by eapply H.
  - intros k' rem' E. apply list_lookup_insert_Some in E as [(_&?&_)|[_ E]]; [done|]. by eapply H.
Qed.
Lemma rounds_init hosts : rounds_ok (hl_init hosts).
Proof.
  intros k rem E. cbn in E. apply elem_of_list_lookup_2, elem_of_list_singleton in E. injection E as ->. apply NoDup_fst_map_to_list.
Qed.

(** polls move from one place to the other, none comes *)
Lemma gone_step s a s' : hlstep s a s' → stopped s → stopped s' ∧
  (rounds_ok s → (polls_left (l_rounds s') + length (l_resp s'))%nat = (polls_left (l_rounds s) + length (l_resp s))%nat) ∧
  (polls_left (l_rounds s') ≤ polls_left (l_rounds s))%nat ∧ (length (l_resp s) ≤ 64 → length (l_resp s') ≤ 64)%nat.
Proof.
  unfold stopped. intros St E. destruct St; try congruence; cbn; try (by split; [|split; [|split]]).
  - rename H0 into Hr, H1 into Hin, H2 into Hc. pose proof (polls_left_insert _ _ _ (Some (remove string_dec (r_hp r) rem)) Hr) as L. cbn [left1] in L.
    pose proof (remove_length_lt string_dec rem (r_hp r) ltac:(by rewrite <- elem_of_list_In)) as Hlt. unfold resp_cap in Hc.
    split; [done|]. rewrite app_length. cbn. split; [|split]; [|lia|lia]. intros Ho. pose proof (remove_length (r_hp r) rem (Ho _ _ Hr) Hin). lia.
  - rename H0 into Hr, H1 into Hc. pose proof (polls_left_insert _ _ _ None Hr) as L. cbn [left1 length] in L. unfold resp_cap in Hc.
    split; [done|]. rewrite app_length. cbn. split; [|split]; lia.
Qed.
Lemma resp_step s a s' : hlstep s a s' → (length (l_resp s) ≤ 64 → length (l_resp s') ≤ 64)%nat.
Proof.
  intros St H. destruct St; cbn; try done; unfold after;
    try (repeat match goal with |- context [match ?r with Ok _ => _ | Crash _ => _ end] => destruct r end; cbn; try done; match goal with H : l_resp _ = _ :: _ |- _ => rewrite H in *; cbn in *; lia end).
  all: try (rewrite app_length; cbn; unfold resp_cap in *; lia).
Qed.
Lemma req_step s a s' : hlstep s a s' → 0 ≤ l_req s → 0 ≤ l_req s'.
Proof.
  intros St H. destruct St; cbn; try done; unfold after; try lia.
  all: repeat match goal with |- context [match ?r with Ok _ => _ | Crash _ => _ end] => destruct r end; cbn; done.
Qed.
Section Leak.
  Context (hosts : list string) (x : exec hl (Z * hact)) (Hx : is_exec hlstep x) (H0 : x_at x 0%nat = hl_init hosts).
  Lemma at_rounds n : rounds_ok (x_at x n) ∧ (length (l_resp (x_at x n)) ≤ 64)%nat ∧ 0 ≤ l_req (x_at x n).
  Proof using Hx H0.
    induction n as [|n (IH1&IH2&IH3)]; [rewrite H0; split; [apply rounds_init|cbn; lia]|].
    destruct (next _ x n Hx) as [[_ ->]|(a&_&St)]; [done|]. split; [by eapply rounds_step|]. split; [by eapply resp_step|by eapply req_step].
  Qed.
  Lemma gone_after n m : stopped (x_at x n) → (n ≤ m)%nat → stopped (x_at x m) ∧
    (polls_left (l_rounds (x_at x m)) + length (l_resp (x_at x m)))%nat = (polls_left (l_rounds (x_at x n)) + length (l_resp (x_at x n)))%nat ∧
    (polls_left (l_rounds (x_at x m)) ≤ polls_left (l_rounds (x_at x n)))%nat.
  Proof using Hx H0.
    intros Hs. induction 1 as [|m Hm (IH1&IH2&IH3)]; [done|]. destruct (next _ x m Hx) as [[_ ->]|(a&_&St)]; [done|].
    destruct (gone_step _ _ _ St IH1) as (?&E&?&_). specialize (E (proj1 (at_rounds m))). split; [done|]. lia.
  Qed.
  (** too many polls for the queue: some never end *)
  Lemma thm_polls_left n : stopped (x_at x n) → (64 < polls_left (l_rounds (x_at x n)) + length (l_resp (x_at x n)))%nat →
    ∀ m, (n ≤ m)%nat → (0 < polls_left (l_rounds (x_at x m)))%nat.
  Proof using Hx H0. intros Hs Hl m Hm. destruct (gone_after n m Hs Hm) as (_&E&_). pose proof (proj1 (proj2 (at_rounds m))). lia. Qed.
  (** otherwise all end *)
  Lemma thm_polls_end n : polls_fair x → stopped (x_at x n) → (polls_left (l_rounds (x_at x n)) + length (l_resp (x_at x n)) ≤ 64)%nat →
    ∃ m, (n ≤ m)%nat ∧ polls_left (l_rounds (x_at x m)) = 0%nat.
  Proof using Hx H0.
    intros Hf Hs. remember (polls_left (l_rounds (x_at x n))) as w eqn:Ew. revert n Hs Ew. induction (lt_wf w) as [w _ IH]. intros n Hs Ew Hc.
    destruct (decide (w = 0%nat)) as [-> |Hw]; [by exists n|].
    destruct (polls_left_some (l_rounds (x_at x n))) as (k&rem&Ek); [congruence|].
    assert (∃ m, (n ≤ m)%nat ∧ (polls_left (l_rounds (x_at x (S m))) < w)%nat) as (m&Hm&Hlt).
    { destruct rem as [|h rem].
      - destruct (weak_leads_at _ x (λ _, False) (is_act (λ a, a = HPushNil k)) (λ s, stopped s ∧ l_rounds s !! k = Some (Some [])) n Hx (pf_nil _ Hf k) (none_false _ _) (conj Hs Ek))
          as (m&Hm&(a&Ha&Hp)&Hs'&Ek').
        + intros m Hm [Hsm Em]. destruct (gone_after n m Hs Hm) as (_&E&_).
          exists (0, HPushNil k). eexists. split; [done|]. apply Hl_push_nil; [by rewrite Hsm|done|].
          unfold resp_cap. pose proof (polls_left_insert _ _ _ None Em) as L. cbn in L. lia.
        + intros s a s' [Hss Es] St. destruct (gone_step _ _ _ St Hss) as [Hs2 _].
          clear Hs Ek Ew. destruct St; try (right; right; split; [done|exact Es]); try (unfold stopped in Hss; congruence).
          * right. right. split; [done|]. cbn. rewrite list_lookup_insert_ne; [done|]. intros ->. rewrite Es in H1. injection H1 as <-. by apply elem_of_nil in H2.
          * destruct (decide (k0 = k)) as [-> |Hne]; [by left|]. right. right. split; [done|]. cbn. by rewrite list_lookup_insert_ne.
        + exists m. split; [done|]. destruct a as [t a]. unfold is_act in Hp. cbn in Hp. subst a. pose proof (Hx m) as St. rewrite Ha in St. revert St. generalize (x_at x (S m)). intros s' St.
          inversion St as [| |? ? ? Hc1 Hc2 Hc3| | | | | | | | | | | | | | | | | |]; subst. cbn. pose proof (polls_left_insert _ _ _ None Hc2) as L. cbn in L.
          destruct (gone_after n m Hs Hm) as (_&_&?). lia.
      - destruct (weak_leads_at _ x (λ _, False) (is_act (λ a, ∃ r, a = HPush k r ∧ r_hp r = h)) (λ s, stopped s ∧ ∃ rem, l_rounds s !! k = Some (Some rem) ∧ h ∈ rem) n Hx (pf_push _ Hf k h) (none_false _ _))
          as (m&Hm&(a&Ha&Hp)&Hs'&rem'&Ek'&Hin).
        + split; [done|]. exists (h :: rem). split; [done|]. by left.
        + intros m Hm [Hsm (rem'&Em&Hin)]. destruct (gone_after n m Hs Hm) as (_&E&_).
          exists (0, HPush k (Resp h 0 None 200 0 "" 0 [])). eexists. split; [by eexists|]. eapply Hl_push; [by rewrite Hsm|done|done|].
          unfold resp_cap. pose proof (polls_left_insert _ _ _ None Em) as L. cbn in L. lia.
        + intros s a s' [Hss (rem'&Es&Hin)] St. destruct (gone_step _ _ _ St Hss) as [Hs2 _].
          clear Hs Ek Ew. destruct St; try (right; right; split; [done|by exists rem']); try (unfold stopped in Hss; congruence).
          * destruct (decide (k0 = k)) as [-> |Hne].
            -- rewrite Es in H1. injection H1 as <-. destruct (decide (r_hp r = h)) as [<-|Hh]; [left; by exists r|].
               right. right. split; [done|]. cbn. eexists. split; [apply list_lookup_insert; by eapply lookup_lt_Some|].
               rewrite elem_of_list_In in *. by apply in_in_remove.
            -- right. right. split; [done|]. cbn. exists rem'. by rewrite list_lookup_insert_ne.
          * right. right. split; [done|]. cbn. exists rem'. rewrite list_lookup_insert_ne; [done|]. intros ->. rewrite Es in H1. injection H1 as ->. by apply elem_of_nil in Hin.
        + exists m. split; [done|]. destruct a as [t a]. destruct Hp as (r&Ea&Eh). cbn in Ea. subst a. pose proof (Hx m) as St. rewrite Ha in St. revert St. generalize (x_at x (S m)). intros s' St.
          inversion St as [|? ? ? rem2 ? Hc1 Hc2 Hc3 Hc4| | | | | | | | | | | | | | | | | | |]; subst. cbn. rewrite Ek' in Hc2. injection Hc2 as <-.
          pose proof (polls_left_insert _ _ _ (Some (remove string_dec (r_hp r) rem')) Ek') as L. cbn [left1] in L.
          pose proof (remove_length_lt string_dec rem' (r_hp r) ltac:(by rewrite <- elem_of_list_In)).
          destruct (gone_after n m Hs Hm) as (_&_&?). lia. }
    destruct (gone_after n (S m) Hs ltac:(lia)) as (Hs'&E&_).
    destruct (IH _ Hlt (S m) Hs' eq_refl) as (j&Hj&Ej); [lia|]. exists j. split; [lia|done].
  Qed.
  (** the debouncer never ends: it goes round for ever or waits for ever *)
  Lemma thm_debouncer n : healthd_fair x → stopped (x_at x n) → ∀ m, (n ≤ m)%nat →
    ∃ k, (m ≤ k)%nat ∧ (happens (is_act is_deb) x k ∨ ∃ o, ∀ j, (k ≤ j)%nat → l_deb (x_at x j) = DSnd o).
  Proof using Hx H0.
    intros Hf Hs m Hm. destruct (gone_after n m Hs Hm) as (Hsm&_).
    assert (D : ∀ j, (m ≤ j)%nat → stopped (x_at x j)) by (intros j Hj; by apply (gone_after m j)).
    destruct (hf_deb _ Hf m) as (k&Hk&[H|H]); [exists k; split; [done|by left]|].
    exists k. split; [done|]. right. pose proof (D k Hk) as Hsk.
    destruct (l_deb (x_at x k)) as [o|o|o] eqn:E.
    - exfalso. apply H. pose proof (Z.eq_dec (l_req (x_at x k)) 0) as [Er|Er].
      + exists (0, HDeb DIdle). eexists. split; [done|]. eapply Hl_deb_idle; [by rewrite Hsk|done|rewrite E; apply Db_idle].
      + exists (0, HDeb DTake). eexists. split; [done|]. eapply Hl_deb_take; [by rewrite Hsk| |rewrite E; apply Db_take]. pose proof (proj2 (proj2 (at_rounds k))). lia.
    - exfalso. apply H. exists (0, HDeb DCheck). eexists. split; [done|]. eapply Hl_deb_check; [by rewrite Hsk|rewrite E; apply Db_check].
    - exists o. intros j Hj. induction Hj as [|j Hj IH]; [done|]. destruct (next _ x j Hx) as [[_ ->]|(a&_&St)]; [done|].
      pose proof (D j ltac:(lia)) as Hsj. revert St. generalize (x_at x (S j)). intros s' St. unfold stopped in Hsj.
      destruct St; try congruence; cbn; try done; exfalso; match goal with H : dstep _ _ _ _ |- _ => rewrite IH in H; inversion H end.
  Qed.
End Leak.

(** ** Concrete executions *)
Definition bye3 : list (Z * hact) := [(1, HStop 3); (2, HStopTake 3); (3, HStopRet 3)].
Lemma bye_runs s : l_loop s = ASel → l_stop s = [] → l_bye s = [] → hlsteps s bye3
  (HL (l_hd s) AGone (l_resp s) (l_req s) (l_deb s) (l_rounds s) (l_pass s) (l_iq s) (l_hq s) true [] []).
Proof.
  intros E1 E2 E3. econstructor; [apply Hl_stop; [by rewrite E1|]; split; [rewrite E2|rewrite E3]; apply not_elem_of_nil|]. rewrite E1, E2, E3.
  econstructor; [eapply Hl_stop_take; [done|]; by left|]. cbn.
  econstructor; [eapply Hl_stop_ret; [done|]; by left|]. cbn. constructor.
Qed.
(** 66 hosts: Stop while the first round is under way *)
Lemma leak_example : ∃ x, is_exec hlstep x ∧ x_at x 0%nat = hl_init w_hosts ∧ healthd_fair x ∧ stopped (x_at x 3) ∧ polls_left (l_rounds (x_at x 3)) = 67%nat.
Proof.
  pose proof (bye_runs (hl_init w_hosts) eq_refl eq_refl eq_refl) as H. set (s := HL _ _ _ _ _ _ _ _ _ _ _ _) in H.
  assert (Hs : left_loop s) by (repeat split; try done; by left).
  destruct (hl_prefix _ _ _ _ H (idles_exec 6 s Hs) eq_refl) as (x&Hx&E0&Hg). exists x. split; [done|]. split; [done|]. split; [by eapply left_fair|].
  destruct Hg as (_&_&Hg&_). pose proof (Hg 0%nat) as E. change (length bye3 + 0)%nat with 3%nat in E. rewrite E. split; [done|].
  vm_compute. reflexivity.
Qed.
Lemma idles_rounds t0 s n : l_rounds (run_at (idles t0) s n) = l_rounds s.
Proof. induction n as [|n IH]; [done|]. cbn. unfold idles at 1. destruct (l_deb _); cbn; exact IH. Qed.
(** one host, which answers after Stop has returned *)
Definition late1 : list (Z * hact) := [(4, HPush 0 (Resp "h:1" 0 None 200 0 "" 0 [])); (5, HPushNil 0)].
Lemma ends_example : ∃ x, is_exec hlstep x ∧ x_at x 0%nat = hl_init ["h:1"] ∧ healthd_fair x ∧ polls_fair x ∧ stopped (x_at x 3) ∧
  polls_left (l_rounds (x_at x 3)) = 2%nat ∧ l_resp (x_at x 3) = [] ∧ polls_left (l_rounds (x_at x 5)) = 0%nat.
Proof.
  pose proof (bye_runs (hl_init ["h:1"]) eq_refl eq_refl eq_refl) as H.
  assert (Eh : l_rounds (hl_init ["h:1"]) = [Some ["h:1"]]) by (vm_compute; reflexivity). rewrite Eh in H.
  change (l_hd (hl_init ["h:1"])) with (hd_init ["h:1"]) in H. cbn [l_resp l_req l_deb l_pass l_iq l_hq hl_init] in H. revert H. generalize (hd_init ["h:1"]). intros h H.
  set (s := HL _ _ _ _ _ _ _ _ _ _ _ _) in H.
  assert (H1 : hlstep s (4, HPush 0 (Resp "h:1" 0 None 200 0 "" 0 [])) (with_queue s [(0%nat, Some (Resp "h:1" 0 None 200 0 "" 0 []))] [Some []])).
  { pose proof (Hl_push s 4 0 ["h:1"] (Resp "h:1" 0 None 200 0 "" 0 [])) as Hs. apply Hs; try done. by left. }
  set (s1 := with_queue _ _ _) in H1.
  pose proof (Hl_push_nil s1 5 0 ltac:(done) eq_refl ltac:(done)) as H2. set (s2 := with_queue _ _ _) in H2.
  assert (Ht : hlsteps s late1 s2) by (econstructor; [exact H1|]; econstructor; [exact H2|constructor]).
  assert (Hall : hlsteps (hl_init ["h:1"]) (bye3 ++ late1) s2) by (apply hlsteps_app; by exists s).
  assert (Hs2 : left_loop s2) by (repeat split; try done; by left).
  destruct (hl_prefix _ _ _ _ Ht (idles_exec 6 s2 Hs2) eq_refl) as (y&Hy&Ey&Hgy).
  destruct (hl_prefix _ _ _ _ H Hy Ey) as (x&Hx&E0&Hg).
  exists x. split; [done|]. split; [done|].
  assert (Hgo : goes_on x (bye3 ++ late1) (run (idles 6) s2)).
  { destruct Hg as (G1&G2&G3&G4), Hgy as (K1&K2&K3&K4). split; [|split; [|split]].
    - intros n. rewrite app_length, <- Nat.add_assoc, G1, K1. by rewrite app_assoc.
    - intros n a Ha. apply lookup_app_Some in Ha as [Ha|[Hn Ha]]; [by apply G2|]. apply K2 in Ha. rewrite <- Ha, <- G4. f_equal. lia.
    - intros n. by rewrite app_length, <- Nat.add_assoc, G3, K3.
    - intros n. by rewrite app_length, <- Nat.add_assoc, G4, K4. }
  split; [by eapply left_fair|].
  assert (Hr : ∀ n, (5 ≤ n)%nat → l_rounds (x_at x n) = [None]).
  { intros n Hn. destruct Hgo as (_&_&G3&_). replace n with (length (bye3 ++ late1) + (n - 5))%nat by (cbn; lia). rewrite G3. cbn [x_at run]. by rewrite idles_rounds. }
  split.
  { split.
    - intros k p. apply weak_impossible. intros n. exists (n + 5)%nat. split; [lia|]. intros (a&s'&(r&Ha&_)&St). destruct a as [t a]. cbn in Ha. subst a.
      specialize (Hr (n + 5)%nat ltac:(lia)). revert Hr St. generalize (x_at x (n + 5)%nat). intros s3 Hr St. inversion St as [|? ? ? rem2 ? Hc1 Hc2 Hc3 Hc4| | | | | | | | | | | | | | | | | | |]; subst.
      rewrite Hr in Hc2. by destruct k as [|[]].
    - intros k. apply weak_impossible. intros n. exists (n + 5)%nat. split; [lia|]. intros (a&s'&Ha&St). destruct a as [t a]. unfold is_act in Ha. cbn in Ha. subst a.
      specialize (Hr (n + 5)%nat ltac:(lia)). revert Hr St. generalize (x_at x (n + 5)%nat). intros s3 Hr St. inversion St as [| |? ? ? Hc1 Hc2 Hc3| | | | | | | | | | | | | | | | | |]; subst.
      rewrite Hr in Hc2. by destruct k as [|[]]. }
  assert (E3 : x_at x 3%nat = s). { destruct Hg as (_&_&G3&_). pose proof (G3 0%nat) as E. cbn [length Nat.add bye3] in E. by rewrite E. }
  rewrite E3. split; [done|]. split; [done|]. split; [done|]. by rewrite Hr by lia.
Qed.
