(** Numbers in labels (proofs for C53). *)
From Coq Require Import List Arith Lia String Ascii DecimalString DecimalFacts DecimalNat.
From Verif Require Import Num Plot SpecShow.
Import ListNotations.
Open Scope nat_scope.

Lemma reads_nil d acc : reads acc (NilEmpty.string_of_uint d) = Some (Nat.of_uint_acc d acc).
Proof.
  revert acc. induction d as [|d IH|d IH|d IH|d IH|d IH|d IH|d IH|d IH|d IH|d IH]; intros acc; [reflexivity|..]; cbn [NilEmpty.string_of_uint Nat.of_uint_acc];
    rewrite Nat.tail_mul_spec; (etransitivity; [|apply IH]); [change (reads (10 * acc + 0) (NilEmpty.string_of_uint d) = reads (10 * acc) (NilEmpty.string_of_uint d)); f_equal; lia|..];
    [change (reads (10 * acc + 1) (NilEmpty.string_of_uint d) = reads (1 + 10 * acc) (NilEmpty.string_of_uint d))
    |change (reads (10 * acc + 2) (NilEmpty.string_of_uint d) = reads (2 + 10 * acc) (NilEmpty.string_of_uint d))
    |change (reads (10 * acc + 3) (NilEmpty.string_of_uint d) = reads (3 + 10 * acc) (NilEmpty.string_of_uint d))
    |change (reads (10 * acc + 4) (NilEmpty.string_of_uint d) = reads (4 + 10 * acc) (NilEmpty.string_of_uint d))
    |change (reads (10 * acc + 5) (NilEmpty.string_of_uint d) = reads (5 + 10 * acc) (NilEmpty.string_of_uint d))
    |change (reads (10 * acc + 6) (NilEmpty.string_of_uint d) = reads (6 + 10 * acc) (NilEmpty.string_of_uint d))
    |change (reads (10 * acc + 7) (NilEmpty.string_of_uint d) = reads (7 + 10 * acc) (NilEmpty.string_of_uint d))
    |change (reads (10 * acc + 8) (NilEmpty.string_of_uint d) = reads (8 + 10 * acc) (NilEmpty.string_of_uint d))
    |change (reads (10 * acc + 9) (NilEmpty.string_of_uint d) = reads (9 + 10 * acc) (NilEmpty.string_of_uint d))]; f_equal; lia.
Qed.
Lemma normal n : Decimal.unorm (Nat.to_uint n) = Nat.to_uint n.
Proof. rewrite <- (Unsigned.of_to n) at 2. rewrite Unsigned.to_of. reflexivity. Qed.
Lemma nzhead_first d : Decimal.nzhead d = Decimal.Nil \/ exists c s, NilEmpty.string_of_uint (Decimal.nzhead d) = String c s /\ c <> "0"%char.
Proof.
  induction d as [|d IH|d IH|d IH|d IH|d IH|d IH|d IH|d IH|d IH|d IH]; [left; reflexivity|exact IH|..]; right; cbn; eexists; eexists; (split; [reflexivity|discriminate]).
Qed.
Lemma show_written n : written n (show n).
Proof.
  assert (E : show n = NilEmpty.string_of_uint (Nat.to_uint n)).
  { unfold show. rewrite <- (normal n). unfold Decimal.unorm. destruct (Decimal.nzhead (Nat.to_uint n)); reflexivity. }
  split.
  - rewrite E, reads_nil. f_equal. exact (Unsigned.of_to n).
  - rewrite E, <- (normal n). unfold Decimal.unorm. destruct (nzhead_first (Nat.to_uint n)) as [X|(c & s & X & Hc)]; [left; rewrite X; reflexivity|right].
    exists c, s. split; [|exact Hc]. rewrite <- X. destruct (Decimal.nzhead (Nat.to_uint n)); [discriminate X|reflexivity..].
Qed.
Lemma concat_commas l : String.concat ", " l = with_commas l.
Proof. induction l as [|a l IH]; [reflexivity|]. destruct l as [|b l]; [reflexivity|]. cbn [String.concat with_commas] in *. rewrite IH. reflexivity. Qed.
Lemma list_listed l : listed l (show_list l).
Proof.
  exists (map show l). split; [induction l; constructor; [apply show_written|assumption]|]. unfold show_list. rewrite concat_commas. reflexivity.
Qed.
