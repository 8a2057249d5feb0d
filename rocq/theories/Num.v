(** Number systems the model is run in.  The C++ code computes with [double]; the
    model is written once over this interface and instantiated with IEEE binary64
    ([F64.v]), exact integers (for small executable tests) and exact reals. *)
From Verif Require Import Base.

Record num : Type := mkNum {
  car : Type;
  nzero : car;                       (** 0.0 *)
  nmaxv : car;                       (** std::numeric_limits<double>::max() *)
  nadd : car -> car -> car;
  nsub : car -> car -> car;
  nmul : car -> car -> car;
  ndiv : car -> car -> car;
  nlt : car -> car -> bool;          (** a < b  (b > a) *)
  nle : car -> car -> bool           (** a <= b (b >= a) *)
}.
Arguments nzero {n}.
Arguments nmaxv {n}.
Arguments nadd {n}.
Arguments nsub {n}.
Arguments nmul {n}.
Arguments ndiv {n}.
Arguments nlt {n}.
Arguments nle {n}.

(** The comparison behaves as a strict weak order on the values satisfying [ok]
    (for doubles: on everything that is not NaN; +0 and -0 are equivalent). *)
Record order_laws (D : num) (ok : car D -> Prop) : Prop := mkOrderLaws {
  ol_irrefl : forall a, ok a -> nlt a a = false;
  ol_trans : forall a b c, ok a -> ok b -> ok c ->
      nlt a b = true -> nlt b c = true -> nlt a c = true;
  ol_cotrans : forall a b c, ok a -> ok b -> ok c ->
      nlt a b = false -> nlt b c = false -> nlt a c = false;
  ol_le : forall a b, ok a -> ok b -> nle a b = negb (nlt b a);
  ol_max : ok nmaxv
}.

(** Exact integers (executable). *)
Definition Znum : num := {|
  car := Z; nzero := 0%Z; nmaxv := (2 ^ 1024)%Z;
  nadd := Z.add; nsub := Z.sub; nmul := Z.mul; ndiv := Z.div;
  nlt := Z.ltb; nle := Z.leb |}.

Lemma Znum_order : order_laws Znum (fun _ => True).
Proof.
  split; cbn [nlt nle Znum]; intros; auto.
  - apply Z.ltb_irrefl.
  - rewrite Z.ltb_lt in *. lia.
  - rewrite Z.ltb_ge in *. lia.
  - rewrite Z.ltb_antisym, negb_involutive. reflexivity.
Qed.
