(** C09 in double precision: sampling twice, and samples outside the cell they stand for. *)
From Coq Require Import Reals ZArith.
From Flocq Require Import IEEE754.BinarySingleNaN.
From Verif Require Import Base BaseProofs Num Vec F64 FloorModel KdModel NthElement SortSpec VoxModel VoxSpec Prop_KdTree Prop_Vox.
Open Scope nat_scope.

(** The doubles nearest to 0.7 and 0.65, and 1.0 / 0.1 = 10 computed as the library does
    (downsampling.hpp:30). *)
Definition d07 : f64 := f64_of 6305039478318694 (-53).
Definition d065 : f64 := f64_of 5854679515581645 (-53).
Definition d01 : f64 := f64_of 7205759403792794 (-56).
Definition ten64 : f64 := f64_div (f64_of 1 0) d01.

Definition on_x (x : f64) : vec4 Fnum := V4 (D := Fnum) x (f64_of 0 0) (f64_of 0 0) (f64_of 1 0).
Definition three_and_one : list (vec4 Fnum) := [on_x d07; on_x d07; on_x d07; on_x d065].

Definition key_of (p : vec4 Fnum) : outcome N := voxel_key Strict ten64 p.

Definition is_key (o : outcome N) (k : N) : bool := match o with Ok l => (l =? k)%N | _ => false end.
Lemma is_key_ok o k : is_key o k = true -> o = Ok k.
Proof. destruct o; cbn; try discriminate. intros E%N.eqb_eq. now subst. Qed.

Definition key7 : N := 4611688217451692039%N.
Definition key6 : N := 4611688217451692038%N.

(** The computation behind the next theorem, as one test. *)
Lemma three_and_one_run :
  match voxelgrid_sampling key_of isort three_and_one with
  | Ok [a; b] =>
      is_key (key_of a) key6 && is_key (key_of b) key6 &&
      match voxelgrid_sampling key_of isort [a; b] with Ok [_] => true | _ => false end
  | _ => false
  end = true.
Proof. vm_compute. reflexivity. Qed.

(** Three copies of the point 0.7 have, in doubles, a computed mean below 0.7: the sample lies
    in the cell of 0.65, not in the one of the points it stands for.  Two samples then share a
    cell, and a second pass with the same leaf size merges them. *)
Theorem C09_idempotent_in_doubles_refuted :
  exists (inv : f64) (points : list (vec4 Fnum)) (a b c : vec4 Fnum) (k l : N),
    is_finite inv = true /\
    (forall p, In p points -> is_finite (vx p) = true /\ vw p = f64_of 1 0) /\
    k <> l /\ k <> INVALID_COORD /\ l <> INVALID_COORD /\
    map (voxel_key Strict inv) points = [Ok k; Ok k; Ok k; Ok l] /\
    voxelgrid_sampling (voxel_key Strict inv) isort points = Ok [a; b] /\
    voxel_key Strict inv a = Ok l /\ voxel_key Strict inv b = Ok l /\
    voxelgrid_sampling (voxel_key Strict inv) isort [a; b] = Ok [c].
Proof.
  pose proof three_and_one_run as R. unfold key_of in R.
  destruct (voxelgrid_sampling (voxel_key Strict ten64) isort three_and_one)
    as [[|a [|b [|? ?]]]| | |] eqn:E1; try discriminate R.
  apply andb_true_iff in R as [R R3]. apply andb_true_iff in R as [R1 R2].
  destruct (voxelgrid_sampling (voxel_key Strict ten64) isort [a; b])
    as [[|c [|? ?]]| | |] eqn:E2; try discriminate R3.
  exists ten64, three_and_one, a, b, c, key7, key6.
  split; [vm_compute; reflexivity|]. split.
  { intros p Hp. repeat (destruct Hp as [<-|Hp]; [split; [vm_compute; reflexivity|reflexivity]|]).
    destruct Hp. }
  split; [discriminate|]. split; [discriminate|]. split; [discriminate|]. split.
  { unfold three_and_one. cbn [map].
    assert (K7 : voxel_key Strict ten64 (on_x d07) = Ok key7)
      by (apply is_key_ok; vm_compute; reflexivity).
    assert (K6 : voxel_key Strict ten64 (on_x d065) = Ok key6)
      by (apply is_key_ok; vm_compute; reflexivity).
    rewrite K7, K6. reflexivity. }
  split; [exact E1|]. split; [apply is_key_ok, R1|]. split; [apply is_key_ok, R2|]. exact E2.
Qed.

(** The numbers: 1.0 / 0.1 is exactly 10, and both keys are valid. *)
Example C09_twice_numbers :
  B2SF ten64 = B2SF (f64_of 10 0) /\ key_of (on_x d07) <> Ok INVALID_COORD /\
  key_of (on_x d065) <> Ok INVALID_COORD.
Proof. split; [vm_compute; reflexivity|]. split; vm_compute; discriminate. Qed.

Print Assumptions C09_idempotent_in_doubles_refuted.
