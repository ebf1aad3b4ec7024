(** Trees whose keys lie in a window, and the distance join over [i32] boxes. *)
From Coq Require Import Lra.
From Flocq Require Import Core.
From Coq Require Import Floats.SpecFloat.
From Verif Require Export BoxDistProof JoinProof Main.

Lemma wf_change {B K V} cfg (ok ok' : K -> Prop) (rel rel' : B -> list K -> Prop) lo strict level (n : node B K V) :
  (forall b l, (forall k, In k l -> ok' k) -> rel b l -> rel' b l) ->
  wf cfg ok rel lo strict level n -> (forall k, In k (keys n) -> ok' k) -> wf cfg ok' rel' lo strict level n.
Proof.
  intros HR. revert n; induction level as [|l IH]; intros n Hw Hk; destruct (wf_inv _ _ _ _ _ _ _ Hw) as (b & x & ->).
  - rewrite wf_leaf in *. destruct Hw as (H1 & H2 & _). split; [apply HR; [exact Hk|exact H1]|]. split; [exact H2|].
    apply Forall_forall. intros kv Hin. apply Hk. unfold keys. apply in_map, Hin.
  - rewrite wf_inner in *. destruct Hw as (H1 & H2 & H3). split; [apply HR; [|exact H1]; rewrite keys_inner in Hk; exact Hk|]. split; [exact H2|].
    rewrite Forall_forall in *. intros c Hc. destruct (H3 c Hc) as [H4 H5]. split; [|exact H5].
    apply IH; [exact H4|]. intros k Hin. apply Hk. rewrite keys_inner. apply in_flat_map. eauto.
Qed.

Section Window.
Context {N : Type} (S : ScalarOps N) (L : scalar_laws S) (HA : scalar_antisym S) {D : nat} (VO : VolumeOps (saabb N D)) (W : saabb N D).

(** [b] includes [k] and lies in the window. *)
Definition incl_in (b k : saabb N D) : Prop := box_incl S b k /\ box_incl S W b.

Lemma fold_box_union l : (forall x, In x l -> box_incl S W x) ->
  box_incl S W (fold_right (box_union S) (box_empty S) l) /\ forall x, In x l -> box_incl S (fold_right (box_union S) (box_empty S) l) x.
Proof.
  induction l as [|y l IH]; intros H; cbn [fold_right].
  - split; [apply (box_empty_least S L)|intros x []].
  - destruct IH as [H1 H2]; [intros x Hx; apply H; now right|]. split.
    + apply (box_union_least S); [apply H; now left|exact H1].
    + intros x [<-|Hx]; [apply (box_union_l S L)|]. eapply (box_incl_trans S L); [apply (box_union_r S L)|auto].
Qed.

Lemma window_wf {V} cfg (t : rtree (saabb N D) (saabb N D) V) ok :
  reachable (box_params S VO) cfg ok t -> (forall e, In e (contents t) -> box_incl S W (fst e)) ->
  good (box_params S VO) incl_in (fun k => ok k /\ box_incl S W k) cfg (fst t) (snd t).
Proof.
  intros Hr HW.
  assert (Hk : forall k k', key_eq (box_params S VO) k' k = true -> key_bounds (box_params S VO) k' = key_bounds (box_params S VO) k).
  { intros k k' H. cbn in *. now apply (box_eqb_eq S L). }
  destruct (inv_exact (box_params S VO) cfg ok t (box_semilattice S L D HA) Hk Hr) as [Hw _].
  assert (Hok := wf_ok _ _ _ _ _ _ _ Hw). rewrite Forall_forall in Hok.
  eexists _, _. eapply wf_change; [|exact Hw|].
  - intros b l Hl -> k Hin. cbn [key_bounds box_params bops]. rewrite map_id. cbn [b_union b_empty box_bounds_ops].
    destruct (fold_box_union l (fun k Hk => proj2 (Hl k Hk))) as [H1 H2]. split; [apply H2, Hin|exact H1].
  - intros k Hin. unfold keys in Hin. apply in_map_iff in Hin as (e & <- & He). split; [apply Hok, He|apply HW, He].
Qed.
End Window.


Lemma spread (l0 h0 l1 h1 l h : Z) : (h0 <= h)%Z -> (l0 <= h0)%Z -> (l <= l0)%Z -> (h1 <= h)%Z -> (l1 <= h1)%Z -> (l <= l1)%Z ->
  (-2147483648 <= h - l <= 2147483647)%Z -> (-2147483648 <= l1 - h0 <= 2147483647)%Z.
Proof. lia. Qed.

Lemma fits_in D (W b0 b1 : saabb i32 D) : narrow W -> box_incl i32_ops W b0 -> box_incl i32_ops W b1 ->
  valid_box i32_ops b0 -> valid_box i32_ops b1 -> fits b0 b1.
Proof.
  unfold narrow, fits. induction D as [|D IH]; intros HW [H0 H0'] [H1 H1'] V0 V1; [split; exact Logic.I|].
  unfold valid_box in *. apply vec_le_cons in H0, H0', H1, H1', V0, V1. destruct HW as [HW HW'].
  destruct H0 as [H0 G0], H0' as [H0' G0'], H1 as [H1 G1], H1' as [H1' G1'], V0 as [V0 GV0], V1 as [V1 GV1].
  destruct (IH (tl_box W) (tl_box b0) (tl_box b1)) as [F1 F2]; [exact HW'|split; assumption|split; assumption|assumption|assumption|].
  cbn in H0, H0', H1, H1', V0, V1. apply Z.leb_le in H0, H0', H1, H1', V0, V1. unfold no_wrap in HW.
  split; (split; [unfold no_wrap|assumption]).
  - exact (spread _ _ _ _ _ _ H0' V0 H0 H1' V1 H1 HW).
  - exact (spread _ _ _ _ _ _ H1' V1 H1 H0' V0 H0 HW).
Qed.

Lemma valid_incl D (b k : saabb i32 D) : box_incl i32_ops b k -> valid_box i32_ops k -> valid_box i32_ops b.
Proof. intros [H1 H2] Hv. unfold valid_box in *. eauto using (vec_le_trans i32_ops i32_laws). Qed.

Local Open Scope R_scope.

Lemma radius_sq r : (0 <= r)%Z -> (r * r <= 2 ^ 53)%Z -> rep (f64_mul (f64_of_Z r) (f64_of_Z r)) (IZR (r * r)).
Proof.
  intros Hr Hrr. assert (Hrep : rep (f64_of_Z r) (IZR r)) by (apply rep_of_Z; rewrite Z.abs_eq; nia).
  assert (H := rep_mul _ _ _ _ Hrep Hrep). rewrite <- mult_IZR in H. rewrite rnd_int in H.
  - apply H. rewrite <- (rnd_int (r * r)) by (rewrite Z.abs_eq; nia). apply (rnd_bound _ (2 ^ 53)); [lia|].
    rewrite <- abs_IZR. apply IZR_le. rewrite Z.abs_eq; nia.
  - rewrite Z.abs_eq; nia.
Qed.

(** A sum that is at least [T] is computed as at least [T]. *)
Lemma rsum_lower T l x : (0 <= T <= 2 ^ 53)%Z -> (0 <= x <= 2 ^ 53)%Z ->
  (T <= x + fold_right Z.add 0 (map (fun g => g * g) l))%Z -> IZR T <= rsum (map rsq l) (IZR x).
Proof.
  intros HT. revert x; induction l as [|g l IH]; intros x Hx Hs; cbn [map fold_right] in Hs.
  - cbn. apply IZR_le. lia.
  - assert (Hn := squares_nonneg l). assert (Hg := Z.square_nonneg g).
    assert (Hnn : Forall (fun y => 0 <= y) (map rsq l)) by (clear; induction l; cbn; constructor; auto using rsq_nonneg).
    cbn [map]. unfold rsum. cbn [fold_left]. fold (rsum (map rsq l) (rnd (IZR x + rsq g))).
    destruct (Z_le_gt_dec T (x + g * g)) as [HTx|HTx].
    + apply Rle_trans with (rnd (IZR x + rsq g)).
      * destruct (Z_le_gt_dec (g * g) (2 ^ 53)) as [Hg2|Hg2].
        -- unfold rsq. rewrite (rnd_int (g * g)) by (rewrite Z.abs_eq; lia). rewrite <- plus_IZR.
           rewrite <- (rnd_int T) by (rewrite Z.abs_eq; lia). apply rnd_le, IZR_le. lia.
        -- rewrite <- (rnd_int T) by (rewrite Z.abs_eq; lia). apply rnd_le.
           assert (H1 : IZR (2 ^ 53) <= rsq g). { unfold rsq. rewrite <- (rnd_int (2 ^ 53)) by (vm_compute; discriminate). apply rnd_le, IZR_le. lia. }
           assert (H2 : IZR T <= IZR (2 ^ 53)) by (apply IZR_le; lia). assert (H3 : 0 <= IZR x) by (apply IZR_le; lia). lra.
      * apply rsum_ge; [apply rnd_nonneg; assert (H3 : 0 <= IZR x) by (apply IZR_le; lia); assert (H4 := rsq_nonneg g); lra| |exact Hnn].
        apply generic_format_round; [apply FLT_exp_valid; reflexivity|apply valid_rnd_N].
    + unfold rsq at 2. rewrite (rnd_int (g * g)) by (rewrite Z.abs_eq; lia). rewrite <- plus_IZR, rnd_int by (rewrite Z.abs_eq; lia).
      apply IH; lia.
Qed.

Lemma rgap2_lower T l : (0 <= T <= 2 ^ 53)%Z -> (T <= fold_right Z.add 0 (map (fun g => g * g) l))%Z -> IZR T <= rgap2 l.
Proof.
  intros HT Hs. destruct l as [|g l]; [cbn in *; apply IZR_le; lia|]. cbn [rgap2 map fold_right] in *.
  destruct (Z_le_gt_dec (g * g) (2 ^ 53)) as [Hg2|Hg2].
  - assert (Hg := Z.square_nonneg g). unfold rsq at 2. rewrite (rnd_int (g * g)) by (rewrite Z.abs_eq; lia). apply rsum_lower; lia.
  - apply Rle_trans with (rsq g).
    + unfold rsq. rewrite <- (rnd_int T) by (rewrite Z.abs_eq; lia). apply rnd_le, IZR_le. lia.
    + apply (rgap2_ge (g :: l) g). now left.
Qed.

Lemma rgap2_lt_iff l q : (0 <= q <= 2 ^ 53)%Z -> rgap2 l < IZR q <-> (fold_right Z.add 0 (map (fun g => g * g) l) < q)%Z.
Proof.
  intros Hq. destruct (Z_lt_ge_dec (fold_right Z.add 0 (map (fun g => g * g) l))%Z q) as [Hs|Hs].
  - rewrite rgap2_exact by lia. split; [apply lt_IZR|apply IZR_lt].
  - split; [|lia]. intros H. assert (H1 := rgap2_lower q l Hq ltac:(lia)). lra.
Qed.


Lemma closer_than_iff r D (a b : saabb i32 (Datatypes.S D)) : fits a b -> (Z.of_nat D < 2 ^ 53)%Z -> (0 <= r)%Z -> (r * r <= 2 ^ 53)%Z ->
  closer_than r a b = true <-> (zgap2 i32_val a b < r * r)%Z.
Proof.
  intros Hf HD Hr Hrr. unfold closer_than. rewrite (rep_lt _ _ _ _ (sq_dist_rep D a b Hf HD) (radius_sq r Hr Hrr)).
  rewrite <- (rgap2_lt_iff (box_gaps i32_val a b) (r * r)) by nia.
  destruct (Rlt_bool_spec (rgap2 (box_gaps i32_val a b)) (IZR (r * r))); split; auto; try discriminate. lra.
Qed.

Lemma zgap2_mono D (a b a' b' : saabb i32 D) : box_incl i32_ops a' a -> box_incl i32_ops b' b -> (zgap2 i32_val a' b' <= zgap2 i32_val a b)%Z.
Proof.
  intros Ha Hb. assert (H := gaps_mono D a b a' b' Ha Hb). unfold zgap2. induction H; cbn [map fold_right]; [lia|]. nia.
Qed.
