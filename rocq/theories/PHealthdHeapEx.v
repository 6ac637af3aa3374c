(** * A concrete execution of the pointer-level model of healthd *)
From Verif Require Import PHealthdEx PHeapEx.
From Verif Require Export SHealthdHeap.
#[local] Open Scope Z_scope.

(** a sorting of positions *)
Definition le_fst (a b : Z * nat) : Prop := a.1 ≤ b.1.
#[export] Instance le_fst_dec a b : Decision (le_fst a b).
Proof. unfold le_fst. apply _. Defined.
Definition the_perm (l : list Z) : list nat := (merge_sort le_fst (zip l (seq 0 (length l)))).*2.
Lemma the_perm_ok : perm_ok the_perm.
Proof.
  intros l. unfold the_perm. pose proof (merge_sort_Permutation le_fst (zip l (seq 0 (length l)))) as Hp. split.
  - rewrite Hp. rewrite snd_zip; [done|]. by rewrite seq_length.
  - assert (Hs : StronglySorted le_fst (merge_sort le_fst (zip l (seq 0 (length l))))).
    { apply StronglySorted_merge_sort.
      - intros a b c. unfold le_fst. lia.
      - intros a b. unfold le_fst. lia. }
    assert (Hin : ∀ x, x ∈ merge_sort le_fst (zip l (seq 0 (length l))) → l !! x.2 = Some x.1).
    { intros [z i]. rewrite Hp. intros [k Hk]%elem_of_list_lookup.
      apply lookup_zip_with_Some in Hk as (z' & i' & He & Hz & Hi). injection He as -> ->.
      apply lookup_seq in Hi as [-> _]. done. }
    assert (He : omap (l !!.) (merge_sort le_fst (zip l (seq 0 (length l)))).*2 = (merge_sort le_fst (zip l (seq 0 (length l)))).*1).
    { revert Hin. generalize (merge_sort le_fst (zip l (seq 0 (length l)))). intros m. clear.
      induction m as [|x m IH]; intros H; [done|]. cbn. rewrite (H x); [|constructor]. f_equal. apply IH.
      intros y Hy. apply H. by constructor. }
    rewrite He. revert Hs. generalize (merge_sort le_fst (zip l (seq 0 (length l)))). intros m. clear.
    induction m as [|x m IH]; intros H; cbn; [constructor|].
    apply StronglySorted_inv in H as [Hs Hf]. constructor; [by apply IH|]. rewrite Forall_fmap. exact Hf.
Qed.
Definition the_porder (s : phd) : porder := POrder (elements (ph_need s)) (λ _, (map_to_list (ph_host s)).*1) the_perm.
Lemma the_porder_ok s : porder_ok s (the_porder s).
Proof. split; [done|]. split; [done|]. apply the_perm_ok. Qed.

(** executable runs; [XWreck]: the other goroutines overwrite every cell they have *)
Inductive xop := XOp (e : eop) | XRead | XWreck.
Definition xop_pop (s : phd) (e : eop) : pop :=
  match e with
  | EResp r => PResp r 1000 1001
  | EPurge now => PPurge (λ _, now)
  | ERecalc => PRecalc (the_porder s)
  end.
Definition wreck (l : list addr) (h : heap) : heap :=
  fold_left (λ h x, match h !! x with Some _ => <[x := VArr []]> h | None => h end) l h.
Definition xact (c : conf) (op : pop) : res conf :=
  match p_step (c_hd c) op ord (c_st c) with
  | Ok (s, (hd, out)) => Ok (Conf s hd (c_theirs c ∪ handed (s_heap s) out))
  | Crash why => Crash why
  end.
Fixpoint xrun (c : conf) (l : list xop) : list pop * res conf :=
  match l with
  | [] => ([], Ok c)
  | XWreck :: l =>
      let h := wreck (elements (c_theirs c)) (s_heap (c_st c)) in
      xrun (Conf (St h (s_log (c_st c)) (s_tick (c_st c))) (c_hd c) (c_theirs c ∪ (dom h ∖ dom (s_heap (c_st c))))) l
  | x :: l =>
      let op := match x with XOp e => xop_pop (c_hd c) e | _ => PRead end in
      match xact c op with
      | Ok c' => let r := xrun c' l in (op :: r.1, r.2)
      | Crash why => ([], Crash why)
      end
  end.
Lemma wreck_mutates (O : addr → Prop) l h : (∀ x, x ∈ l → O x) → mutates O h (wreck l h).
Proof.
  revert h. induction l as [|x l IH]; intros h H; [constructor|]. cbn.
  destruct (h !! x) eqn:Hx; [|apply IH; intros y Hy; apply H; by constructor].
  eapply mut_write; [apply H; constructor|by eexists|]. apply IH. intros y Hy. apply H. by constructor.
Qed.
Lemma xrun_sound l : ∀ c c', (xrun c l).2 = Ok c' → prun ord ∅ c (xrun c l).1 c'.
Proof.
  induction l as [|x l IH]; intros c c' H.
  { cbn in *. injection H as ->. constructor. }
  assert (Hop : ∀ op, pop_ok (c_hd c) op →
    (match xact c op with Ok c' => let r := xrun c' l in (op :: r.1, r.2) | Crash why => ([], Crash why) end).2 = Ok c' →
    prun ord ∅ c (match xact c op with Ok c' => let r := xrun c' l in (op :: r.1, r.2) | Crash why => ([], Crash why) end).1 c').
  { intros op Hok Hr. unfold xact in *. destruct (p_step (c_hd c) op ord (c_st c)) as [[s [ph out]]|why] eqn:Hs; [|done].
    cbn [fst snd] in *. eapply Pr_op; [done|exact Hs|]. by apply IH. }
  destruct x as [e| |].
  - cbn [xrun] in *. apply Hop; [|exact H]. destruct e; cbn; [done|done|apply the_porder_ok].
  - cbn [xrun] in *. apply Hop; [done|exact H].
  - cbn [xrun] in *. eapply Pr_others; [|by apply IH]. apply wreck_mutates. intros x Hx. split; [by apply elem_of_elements|].
    apply not_elem_of_empty.
Qed.
Definition dconf : conf := Conf st0 (phd_init []) ∅.
Definition xconf (l : list xop) : conf := match (xrun (conf0 st0 ["a"; "b"]) l).2 with Ok c => c | Crash _ => dconf end.
Definition xtrace (l : list xop) : list pop := (xrun (conf0 st0 ["a"; "b"]) l).1.
Definition xgood (l : list xop) : bool := match (xrun (conf0 st0 ["a"; "b"]) l).2 with Ok _ => true | Crash _ => false end.
Lemma xconf_run l : xgood l = true → prun ord ∅ (conf0 st0 ["a"; "b"]) (xtrace l) (xconf l).
Proof.
  unfold xgood, xtrace, xconf. destruct (xrun _ l).2 as [c|] eqn:H; [|done]. intros _. by apply xrun_sound.
Qed.

(** two hosts report, a handler gets a snapshot and overwrites all of it, the
    hosts report again, a second snapshot is taken *)
Definition x_heap1 : list xop :=
  [XOp (EResp (xr "a" "i" [xd 60 4 10 0])); XOp (EResp (xr "b" "j" [xd 60 9 5 0; xd 120 2 1 0])); XOp ERecalc; XRead].
Definition x_heap : list xop :=
  x_heap1 ++ [XWreck; XOp (EResp (xr "a" "i" [xd 60 4 10 0; xd 120 3 2 0]));
              XOp (EResp (xr "b" "j" [xd 60 11 6 0; xd 120 2 1 0])); XOp ERecalc].
(** a host sends an aggregation whose own part is null *)
Definition x_hnull : list xop := [XOp (EResp (xr "a" "i" [Some (DAgg 0 (xi 60 4 10) true)]))].

(** the events "e" counted at a pointer *)
Definition seen (h : heap) (p : addr) : option Z :=
  match h !! p with
  | Some (VIa i) => match h !! hm_events (hi_maps i) with Some (VEvents m) => m !! "e" | _ => None end
  | _ => None
  end.
Definition seen_pub (c : conf) : list (option Z) := (λ q, seen (s_heap (c_st c)) (pp_addr q)) <$> ph_pub (c_hd c).
Definition seen_slice (h : heap) (sl : slice) : list (option Z) :=
  match h !! sl_arr sl with
  | Some (VArr arr) => (λ o, match o with Some p => seen h p | None => None end) <$> take (sl_len sl) arr
  | _ => []
  end.
Definition xread (c : conf) : option (heap * slice) :=
  match p_step (c_hd c) PRead ord (c_st c) with Ok (s, (_, Some sl)) => Some (s_heap s, sl) | _ => None end.
Lemma x_heap_run : prun ord ∅ (conf0 st0 ["a"; "b"]) (xtrace x_heap) (xconf x_heap).
Proof. apply xconf_run. by vm_compute. Qed.
Lemma x_heap1_run : prun ord ∅ (conf0 st0 ["a"; "b"]) (xtrace x_heap1) (xconf x_heap1).
Proof. apply xconf_run. by vm_compute. Qed.
Lemma x_hnull_run : prun ord ∅ (conf0 st0 ["a"; "b"]) (xtrace x_hnull) (xconf x_hnull).
Proof. apply xconf_run. by vm_compute. Qed.
