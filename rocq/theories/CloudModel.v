(** PointCloud, include/small_gicp/points/point_cloud.hpp, and its traits.  An element that was
    never written is None (Eigen leaves it uninitialised); reading it is undefined. *)
From Verif Require Import Base.

Section Cloud.
Context (V M : Type).

Record pcloud : Type := mkPC { pc_points : list (option V); pc_normals : list (option V); pc_covs : list (option M) }.
(** PointCloud(), point_cloud.hpp:21 *)
Definition pc_empty : pcloud := mkPC [] [] [].
(** size(), point_cloud.hpp:37 *)
Definition pc_size (c : pcloud) : nat := length (pc_points c).

Definition vresize {X : Type} (l : list (option X)) (n : nat) : list (option X) := firstn n l ++ repeat None (n - length l).
(** The mutating calls: resize (point_cloud.hpp:44-48) and traits::set_point / set_normal /
    set_cov (lines 91-93, operator[] of the vectors). *)
Inductive op : Type := Resize (n : nat) | SetPoint (i : nat) (v : V) | SetNormal (i : nat) (v : V) | SetCov (i : nat) (m : M).
Definition apply (c : pcloud) (o : op) : outcome pcloud :=
  match o with
  | Resize n => Ok (mkPC (vresize (pc_points c) n) (vresize (pc_normals c) n) (vresize (pc_covs c) n))
  | SetPoint i v => let* l := set (pc_points c) i (Some v) in Ok (mkPC l (pc_normals c) (pc_covs c))
  | SetNormal i v => let* l := set (pc_normals c) i (Some v) in Ok (mkPC (pc_points c) l (pc_covs c))
  | SetCov i m => let* l := set (pc_covs c) i (Some m) in Ok (mkPC (pc_points c) (pc_normals c) l)
  end.
Definition run (ops : list op) (c : pcloud) : outcome pcloud := foldM apply ops c.

(** traits::has_points / has_normals / has_covs, point_cloud.hpp:82-84 *)
Definition nonempty {X : Type} (l : list X) : bool := match l with [] => false | _ => true end.
Definition has_points (c : pcloud) : bool := nonempty (pc_points c).
Definition has_normals (c : pcloud) : bool := nonempty (pc_normals c).
Definition has_covs (c : pcloud) : bool := nonempty (pc_covs c).

(** point(i), normal(i), cov(i), point_cloud.hpp:51-66 *)
Definition read {X : Type} (l : list (option X)) (i : nat) : outcome X :=
  let* v := get l i in match v with Some x => Ok x | None => UB end.

(** PointCloud(points), point_cloud.hpp:25-31; [hom] is (x, y, z) -> (x, y, z, 1). *)
Definition construct {P : Type} (hom : P -> V) (points : list P) : outcome pcloud :=
  run (Resize (length points) :: map (fun ip => SetPoint (fst ip) (hom (snd ip))) (combine (seq 0 (length points)) points)) pc_empty.
End Cloud.
Arguments mkPC {V M}. Arguments pc_points {V M}. Arguments pc_normals {V M}. Arguments pc_covs {V M}.
Arguments pc_empty {V M}. Arguments pc_size {V M}. Arguments Resize {V M}. Arguments SetPoint {V M}.
Arguments SetNormal {V M}. Arguments SetCov {V M}. Arguments apply {V M}. Arguments run {V M}.
Arguments has_points {V M}. Arguments has_normals {V M}. Arguments has_covs {V M}. Arguments construct {V M P}.
