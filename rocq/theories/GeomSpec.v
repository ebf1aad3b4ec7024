(** Specification vocabulary for geometry: points, boxes and what "inside" means. *)
From Verif Require Export GeomModel Spec.

(** Scalars are totally ordered ([Ord]) and equality agrees with the order. *)
Record order_laws {N : Type} (S : ScalarOps N) : Prop := {
  s_trans : forall a b c, s_le S a b = true -> s_le S b c = true -> s_le S a c = true;
  s_total : forall a b, s_le S a b = true \/ s_le S b a = true;
  s_eq_le : forall a b, s_eqb S a b = true <-> s_le S a b = true /\ s_le S b a = true
}.

(** ... and, besides, [min_value]/[max_value] are least and greatest (true of the integers; false of floats, where
    the infinities lie outside). *)
Record scalar_laws {N : Type} (S : ScalarOps N) : Prop := {
  s_order :> order_laws S;
  s_least : forall a, s_le S (s_min_value S) a = true;
  s_greatest : forall a, s_le S a (s_max_value S) = true
}.

(** Equal scalars are identical (true of the integers, not of floats because of -0). *)
Definition scalar_antisym {N : Type} (S : ScalarOps N) : Prop :=
  forall a b, s_le S a b = true -> s_le S b a = true -> a = b.

Section Spec.
Context {N : Type} (S : ScalarOps N) {D : nat}.

(** Componentwise order. *)
Definition vec_le (a b : svec N D) : Prop := Forall2 (fun x y => s_le S x y = true) (vlist a) (vlist b).

(** Point [p] lies in the (closed) box [b]. *)
Definition in_box (b : saabb N D) (p : svec N D) : Prop := vec_le (bmin b) p /\ vec_le p (bmax b).

(** [min <= max] in every dimension. *)
Definition valid_box (b : saabb N D) : Prop := vec_le (bmin b) (bmax b).

(** Box [a] includes box [b], by coordinates; for a valid [b] this is inclusion of the sets of points
    ([box_incl_points]). *)
Definition box_incl (a b : saabb N D) : Prop := vec_le (bmin a) (bmin b) /\ vec_le (bmax b) (bmax a).

(** The two boxes share a point. *)
Definition boxes_meet (a b : saabb N D) : Prop := exists p, in_box a p /\ in_box b p.
End Spec.
