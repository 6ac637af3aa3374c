(** * Property theorems: WriterSink (C44-C46)

    [srt] is any function that sorts correctly, [order] the order in which Go
    happened to enumerate the map, [g] any rendering of floats, [ts] the text
    of the clock. *)
From Verif Require Import SWriter PApi PWriter PWriter2.

(** ** C44 *)
Theorem C44_one_write_of_one_line : ∀ srt g ts job e kvs order writes,
  correct_sort srt → (∀ m, kvs = Some m → order ≡ₚ map fst (map_to_list m)) →
  (∀ n, match e with WTiming _ k | WComplete _ k => n = k | _ => False end → in_int64 n) →
  ∃ what kvt, shown g e what ∧ kvs_shown kvs kvt ∧
    writer_emit srt g ts job e kvs order writes = writes ++ ["[" +:+ ts +:+ "]: job:" +:+ job +:+ what +:+ kvt +:+ nl].
Proof. exact thm_writer_line. Qed.
Print Assumptions C44_one_write_of_one_line.

Theorem C44_order_irrelevant : ∀ srt1 srt2 g ts job e kvs o1 o2,
  correct_sort srt1 → correct_sort srt2 →
  (∀ m, kvs = Some m → o1 ≡ₚ map fst (map_to_list m)) → (∀ m, kvs = Some m → o2 ≡ₚ map fst (map_to_list m)) →
  writer_line srt1 g ts job e kvs o1 = writer_line srt2 g ts job e kvs o2.
Proof. exact thm_writer_deterministic. Qed.
Print Assumptions C44_order_irrelevant.

Definition ex_kvs : gmap string string := list_to_map [("b", "2"); ("a", "1"); ("ab", "")].
Example C44_example :
  writer_emit (@isort string) (λ _, "1.5") "T" "j" (WTiming "e" 2500000) (Some ex_kvs) ["b"; "a"; "ab"] ["before"] =
    ["before"; "[T]: job:j event:e time:2 ms kvs:[a:1 ab: b:2]" +:+ nl] ∧
  writer_line (@isort string) (λ _, "1.5") "T" "j" (WTiming "e" 2500000) (Some ex_kvs) ["ab"; "b"; "a"] =
    "[T]: job:j event:e time:2 ms kvs:[a:1 ab: b:2]" +:+ nl ∧
  writer_line (@isort string) (λ _, "1.5") "T" "j" (WGauge "e" f0) None [] = "[T]: job:j event:e gauge:1.5" +:+ nl ∧
  writer_line (@isort string) (λ _, "1.5") "T" "j" (WComplete 1 7) (Some ∅) [] = "[T]: job:j status:validation_error time:7 ns kvs:[]" +:+ nl ∧
  writer_line (@isort string) (λ _, "1.5") "T" "j" (WEventErr "e" "m") None [] = "[T]: job:j event:e err:m" +:+ nl.
Proof. by vm_compute. Qed.
Example C44_example_order : ["b"; "a"; "ab"] ≡ₚ map fst (map_to_list ex_kvs) ∧ correct_sort (@isort string).
Proof. split; [|apply isort_correct]. apply (bool_decide_unpack _). by vm_compute. Qed.

(** ** C45: a newline in a name is written as it is, so one emission can write
    the lines of two. *)
Theorem C45_one_line_refuted : ∀ srt g ts,
  newlines (writer_line srt g ts ("a event:x" +:+ nl +:+ "[" +:+ ts +:+ "]: job:b") (WEvent "y") None []) ≠ 1 ∧
  writer_line srt g ts ("a event:x" +:+ nl +:+ "[" +:+ ts +:+ "]: job:b") (WEvent "y") None [] =
    writer_line srt g ts "a" (WEvent "x") None [] +:+ writer_line srt g ts "b" (WEvent "y") None [].
Proof. exact thm_forged. Qed.
Print Assumptions C45_one_line_refuted.

(** missing: names, errors, keys and values with newlines *)
Theorem C45_newlines_partial : ∀ srt g ts job e kvs order,
  correct_sort srt → (∀ m, kvs = Some m → order ≡ₚ map fst (map_to_list m)) →
  newlines (writer_line srt g ts job e kvs order) =
    1 + newlines ts + newlines job + total_newlines (emission_texts g e) + kvs_newlines kvs.
Proof. exact thm_newlines. Qed.
Print Assumptions C45_newlines_partial.

(** so there is one line exactly when no text of the emission has a newline *)
Theorem C45_exactly_partial : ∀ srt g ts job e kvs order,
  correct_sort srt → (∀ m, kvs = Some m → order ≡ₚ map fst (map_to_list m)) →
  (newlines (writer_line srt g ts job e kvs order) = 1 ↔
     newlines ts = 0 ∧ newlines job = 0 ∧ (∀ x, x ∈ emission_texts g e → newlines x = 0) ∧
     ∀ m k v, kvs = Some m → m !! k = Some v → newlines k = 0 ∧ newlines v = 0).
Proof. exact thm_one_line_iff. Qed.
Print Assumptions C45_exactly_partial.

Example C45_example :
  newlines (writer_line (@isort string) (λ _, "1.5") "T" ("a" +:+ nl +:+ "b") (WEventErr ("c" +:+ nl) "m") (Some (<["z" := nl +:+ nl]> ex_kvs)) ["b"; "z"; "a"; "ab"]) = 5.
Proof. by vm_compute. Qed.

(** ** C46 *)
Theorem C46_time_text : ∀ n, in_int64 n → time_text n (write_nanoseconds n).
Proof. exact thm_time_text. Qed.
Print Assumptions C46_time_text.

Example C46_examples :
  map write_nanoseconds [-5; 2000; 2001; 2999; 2000000; 2000001; 9223372036854775807] =
    ["-5 ns"; "2000 ns"; "2 " +:+ mu_s; "2 " +:+ mu_s; "2000 " +:+ mu_s; "2 ms"; "9223372036854 ms"].
Proof. by vm_compute. Qed.
