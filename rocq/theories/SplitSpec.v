(** What the quadratic splitter is to deliver (C44, C81), without reference to its arrays and indices. *)
From Verif Require Export Spec.

Section Split.
Context {B K T : Type} (P : Params B K) (bnd : T -> B).
Notation VO := (vops P).

(** How much the volume of [b] grows when [x] is added. *)
Definition enlargement (b : B) (x : T) : N64 VO := n64_sub VO (volume VO (b_union (bops P) (bnd x) b)) (volume VO b).

(** [x] is one of [rest] that enlarges [b] least. *)
Definition least_of (b : B) (rest : list T) (x : T) : Prop :=
  In x rest /\ forall y, In y rest -> n64_cmp VO (enlargement b x) (enlargement b y) <> Gt.

(** Distributing the elements [rest] over two groups [g1], [g2] with bounds [b1], [b2]: in each round, [x1] is an element that enlarges
    the first group least and [x2] one that enlarges the second least.  If [x1] enlarges the first group less than [x2] the second,
    [x1] joins the first group, unless the second needs all that remain; otherwise [x2] joins the second, unless the first
    needs all that remain.  [needs1 n]: the first group needs all that remain if with them it has [n] elements. *)
Inductive distributes (needs1 needs2 : nat -> Prop) : list T -> B -> list T -> B -> list T -> B * B * list T * list T -> Prop :=
| dist_done g1 b1 g2 b2 : distributes needs1 needs2 g1 b1 g2 b2 [] (b1, b2, g1, g2)
| dist_1 g1 b1 g2 b2 rest x1 x2 rest' r :
    least_of b1 rest x1 -> least_of b2 rest x2 ->
    match n64_cmp VO (enlargement b1 x1) (enlargement b2 x2) with
    | Lt => ~ needs2 (length g2 + length rest)
    | _ => needs1 (length g1 + length rest)
    end ->
    Permutation rest (x1 :: rest') ->
    distributes needs1 needs2 (g1 ++ [x1]) (b_union (bops P) b1 (bnd x1)) g2 b2 rest' r ->
    distributes needs1 needs2 g1 b1 g2 b2 rest r
| dist_2 g1 b1 g2 b2 rest x1 x2 rest' r :
    least_of b1 rest x1 -> least_of b2 rest x2 ->
    match n64_cmp VO (enlargement b1 x1) (enlargement b2 x2) with
    | Lt => needs2 (length g2 + length rest)
    | _ => ~ needs1 (length g1 + length rest)
    end ->
    Permutation rest (x2 :: rest') ->
    distributes needs1 needs2 g1 b1 (g2 ++ [x2]) (b_union (bops P) b2 (bnd x2)) rest' r ->
    distributes needs1 needs2 g1 b1 g2 b2 rest r.

(** The result of splitting [values] and [ov]: two of them, the seeds, start the groups, the others are distributed. *)
Definition split_result (needs1 needs2 : nat -> Prop) (values : list T) (ov : T) (r : B * B * list T * list T) : Prop :=
  exists s1 s2 rest, Permutation (ov :: values) (s1 :: s2 :: rest) /\
    distributes needs1 needs2 [s1] (bnd s1) [s2] (bnd s2) rest r.

(** The volume by which seeds are chosen: of the union of the two elements and the overflowing value, [values ++ [ov]] numbered from 0. *)
Definition seed_volume (values : list T) (ov : T) (i j : nat) : option (N64 VO) :=
  match nth_error values i, nth_error (values ++ [ov]) j with
  | Some x, Some y =>
    Some (volume VO (b_union (bops P) (bnd x) (if j =? length values then bnd ov else b_union (bops P) (bnd y) (bnd ov))))
  | _, _ => None
  end.
End Split.
