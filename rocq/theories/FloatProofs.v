(** Rounding lemmas and the tiling in double arithmetic. *)
From Coq Require Import Reals Lra.
From Flocq Require Import Core Binary Bits Relative.
From Verif Require Import Base VectorModel MatrixModel HPSModel TreeModel TreeSpec FloatModel FloatSpec.

Local Open Scope R_scope.

Definition fe : Z -> Z := SpecFloat.fexp 53 1024.
Definition rnd (x : R) : R := round radix2 fe ZnearestE x.
Definition repr (x : R) : Prop := generic_format radix2 fe x.

Global Instance prec53 : Prec_gt_0 53.
Proof. reflexivity. Qed.
Global Instance fe_valid : Valid_exp fe.
Proof. exact (FLT_exp_valid (-1074) 53). Qed.
Lemma fe_flt : fe = FLT_exp (-1074) 53.
Proof. reflexivity. Qed.

Lemma repr_val x : repr (val x).
Proof. apply generic_format_B2R. Qed.

Lemma rnd_repr x : repr x -> rnd x = x.
Proof. intros H. unfold rnd. apply round_generic; auto with typeclass_instances. Qed.
Lemma rnd_le x y : x <= y -> rnd x <= rnd y.
Proof. intros H. apply round_le; auto with typeclass_instances. Qed.

(** Rounding keeps bounds that are representable. *)
Lemma rnd_between a b x : repr a -> repr b -> a <= x <= b -> a <= rnd x <= b.
Proof.
  intros A B [H1 H2]. rewrite <- (rnd_repr a A), <- (rnd_repr b B). split; apply rnd_le; assumption.
Qed.

Lemma repr_scaled m e : (Z.abs m < 2 ^ 53)%Z -> (-1074 <= e)%Z -> repr (IZR m * bpow radix2 e).
Proof.
  intros Hm He. unfold repr. rewrite fe_flt. apply generic_format_FLT.
  exists (Float radix2 m e); [reflexivity|exact Hm|exact He].
Qed.
Lemma repr_double x : repr x -> repr (2 * x).
Proof.
  intros H. unfold repr in H. rewrite fe_flt in H. apply FLT_format_generic in H; [|reflexivity].
  destruct H as [[m e] -> Hm He]. cbn [Fnum Fexp] in *.
  replace (2 * F2R (Float radix2 m e)) with (IZR m * bpow radix2 (e + 1)).
  - apply repr_scaled; [exact Hm|lia].
  - unfold F2R. cbn [Fnum Fexp]. rewrite bpow_plus. change (bpow radix2 1) with 2. ring.
Qed.
Lemma repr_opp x : repr x -> repr (- x).
Proof. apply generic_format_opp. Qed.

(** ** Operations *)
Lemma lt_emax_val x : Rabs (val x) < bpow radix2 1024.
Proof. apply abs_B2R_lt_emax. Qed.

Lemma dadd_ok a b : finite a -> finite b -> Rabs (rnd (val a + val b)) < bpow radix2 1024 ->
  finite (dadd a b) /\ val (dadd a b) = rnd (val a + val b).
Proof.
  intros A B H. pose proof (Bplus_correct 53 1024 eq_refl eq_refl binop_nan_pl64 BinarySingleNaN.mode_NE a b A B) as K.
  cbn [BinarySingleNaN.round_mode] in K. fold fe in K. fold (val a) (val b) in K. fold (rnd (val a + val b)) in K.
  rewrite Rlt_bool_true in K by exact H. destruct K as (K1 & K2 & _). split; [exact K2|exact K1].
Qed.
Lemma dsub_ok a b : finite a -> finite b -> Rabs (rnd (val a - val b)) < bpow radix2 1024 ->
  finite (dsub a b) /\ val (dsub a b) = rnd (val a - val b).
Proof.
  intros A B H. pose proof (Bminus_correct 53 1024 eq_refl eq_refl binop_nan_pl64 BinarySingleNaN.mode_NE a b A B) as K.
  cbn [BinarySingleNaN.round_mode] in K. fold fe in K. fold (val a) (val b) in K. fold (rnd (val a - val b)) in K.
  rewrite Rlt_bool_true in K by exact H. destruct K as (K1 & K2 & _). split; [exact K2|exact K1].
Qed.
Lemma dmul_ok a b : finite a -> finite b -> Rabs (rnd (val a * val b)) < bpow radix2 1024 ->
  finite (dmul a b) /\ val (dmul a b) = rnd (val a * val b).
Proof.
  intros A B H. pose proof (Bmult_correct 53 1024 eq_refl eq_refl binop_nan_pl64 BinarySingleNaN.mode_NE a b) as K.
  cbn [BinarySingleNaN.round_mode] in K. fold fe in K. fold (val a) (val b) in K. fold (rnd (val a * val b)) in K.
  rewrite Rlt_bool_true in K by exact H. destruct K as (K1 & K2 & _). split; [|exact K1].
  unfold finite, dmul, b64_mult. rewrite K2. unfold finite in A, B. rewrite A, B. reflexivity.
Qed.
Lemma ddiv_ok a b : finite a -> val b <> 0 -> Rabs (rnd (val a / val b)) < bpow radix2 1024 ->
  finite (ddiv a b) /\ val (ddiv a b) = rnd (val a / val b).
Proof.
  intros A B H. pose proof (Bdiv_correct 53 1024 eq_refl eq_refl binop_nan_pl64 BinarySingleNaN.mode_NE a b B) as K.
  cbn [BinarySingleNaN.round_mode] in K. fold fe in K. fold (val a) (val b) in K. fold (rnd (val a / val b)) in K.
  rewrite Rlt_bool_true in K by exact H. destruct K as (K1 & K2 & _). split; [|exact K1].
  unfold finite, ddiv, b64_div. rewrite K2. exact A.
Qed.

Lemma repr_int n : (Z.abs n < 2 ^ 53)%Z -> repr (IZR n).
Proof. intros H. replace (IZR n) with (IZR n * bpow radix2 0) by (cbn [bpow]; ring). apply repr_scaled; [exact H|lia]. Qed.
Lemma dint_ok n : (Z.abs n < 2 ^ 53)%Z -> finite (dint n) /\ val (dint n) = IZR n.
Proof.
  intros H. pose proof (binary_normalize_correct 53 1024 eq_refl eq_refl BinarySingleNaN.mode_NE n 0 false) as K.
  cbn [BinarySingleNaN.round_mode] in K. fold fe in K.
  replace (F2R {| Fnum := n; Fexp := 0 |}) with (IZR n) in K by (unfold F2R; cbn; ring).
  fold (rnd (IZR n)) in K. rewrite (rnd_repr _ (repr_int n H)) in K.
  rewrite Rlt_bool_true in K; [destruct K as (K1 & K2 & _); split; assumption|].
  rewrite <- abs_IZR. change (bpow radix2 1024) with (IZR (2 ^ 1024)). apply IZR_lt.
  apply (Z.lt_trans _ (2 ^ 53)); [exact H|]. apply Z.pow_lt_mono_r; lia.
Qed.
Lemma dint2 : finite (dint 2) /\ val (dint 2) = 2.
Proof. apply (dint_ok 2). reflexivity. Qed.

(** ** The middle *)
Lemma mid_between a b : moderate a -> moderate b -> val a <= val b ->
  moderate (dmid a b) /\ val a <= val (dmid a b) <= val b /\
  val (dmid a b) = rnd (rnd (val a + val b) / 2).
Proof.
  intros [Fa Ma] [Fb Mb] H. unfold dmid.
  assert (B : 2 * val a <= rnd (val a + val b) <= 2 * val b).
  { apply rnd_between; [apply repr_double, repr_val..|lra]. }
  assert (E : bpow radix2 1024 = 2 * bpow radix2 1023) by (change 1024%Z with (1 + 1023)%Z; rewrite bpow_plus; reflexivity).
  destruct (dadd_ok a b Fa Fb) as [F1 V1].
  { apply Rabs_def2 in Ma, Mb. apply Rabs_def1; lra. }
  destruct dint2 as [F2 V2].
  assert (B' : val a <= rnd (rnd (val a + val b) / 2) <= val b).
  { apply rnd_between; [apply repr_val..|lra]. }
  destruct (ddiv_ok (dadd a b) (dint 2) F1) as [F3 V3].
  { rewrite V2. lra. }
  { rewrite V1, V2. apply Rabs_def2 in Ma, Mb. apply Rabs_def1; lra. }
  rewrite V1, V2 in V3. split; [|rewrite V3; split; [exact B'|reflexivity]].
  split; [exact F3|]. rewrite V3. apply Rabs_def2 in Ma, Mb. apply Rabs_def1; lra.
Qed.

(** ** Intervals *)
Fixpoint part (l u : double) (bs : list bool) : double * double :=
  match bs with
  | [] => (l, u)
  | b :: bs' => if b then part (dmid l u) u bs' else part l (dmid l u) bs'
  end.

Lemma part_in l u bs : moderate l -> moderate u -> val l <= val u ->
  moderate (fst (part l u bs)) /\ moderate (snd (part l u bs)) /\
  val l <= val (fst (part l u bs)) <= val (snd (part l u bs)) /\ val (snd (part l u bs)) <= val u.
Proof.
  revert l u; induction bs as [|b bs IH]; intros l u L U H; cbn [part fst snd].
  - repeat split; try assumption; try apply L; try apply U; lra.
  - destruct (mid_between l u L U H) as (M & B & _).
    destruct b.
    + destruct (IH (dmid l u) u) as (A1 & A2 & A3 & A4); [assumption..|lra|]. repeat split; try assumption; try apply A1; try apply A2; lra.
    + destruct (IH l (dmid l u)) as (A1 & A2 & A3 & A4); [assumption..|lra|]. repeat split; try assumption; try apply A1; try apply A2; lra.
Qed.

Lemma part_tri l u bs bs' : moderate l -> moderate u -> val l <= val u ->
  rnested (val (fst (part l u bs))) (val (snd (part l u bs))) (val (fst (part l u bs'))) (val (snd (part l u bs')))
  \/ val (snd (part l u bs)) <= val (fst (part l u bs')) \/ val (snd (part l u bs')) <= val (fst (part l u bs)).
Proof.
  revert l u bs'; induction bs as [|b bs IH]; intros l u bs' L U H.
  - left. left. cbn [part fst snd]. destruct (part_in l u bs' L U H) as (_ & _ & A & B). lra.
  - destruct bs' as [|b' bs'].
    + left. right. destruct (part_in l u (b :: bs) L U H) as (_ & _ & A & B).
      change (part l u []) with (l, u). cbn [fst snd]. lra.
    + cbn [part]. destruct (mid_between l u L U H) as (M & B & _).
      destruct b, b'.
      * apply IH; [assumption..|lra].
      * right. right. destruct (part_in (dmid l u) u bs M U) as (_ & _ & A & _); [lra|].
        destruct (part_in l (dmid l u) bs' L M) as (_ & _ & _ & C); lra.
      * right. left. destruct (part_in (dmid l u) u bs' M U) as (_ & _ & A & _); [lra|].
        destruct (part_in l (dmid l u) bs L M) as (_ & _ & _ & C); lra.
      * apply IH; [assumption..|lra].
Qed.

(** Intervals of the same length of path with a common inner point are the same. *)
Lemma part_same l u bs bs' : moderate l -> moderate u -> val l <= val u -> length bs = length bs' ->
  forall y, val (fst (part l u bs)) < y < val (snd (part l u bs)) ->
  val (fst (part l u bs')) < y < val (snd (part l u bs')) -> bs = bs'.
Proof.
  revert l u bs'; induction bs as [|b bs IH]; intros l u [|b' bs'] L U H HL y Y Y'; try discriminate; [reflexivity|].
  injection HL as HL. cbn [part] in Y, Y'. destruct (mid_between l u L U H) as (M & B & _).
  destruct b, b'.
  - f_equal. apply (IH (dmid l u) u bs' M U) with y; auto; lra.
  - exfalso. destruct (part_in (dmid l u) u bs M U) as (_ & _ & A & _); [lra|].
    destruct (part_in l (dmid l u) bs' L M) as (_ & _ & _ & C); lra.
  - exfalso. destruct (part_in (dmid l u) u bs' M U) as (_ & _ & A & _); [lra|].
    destruct (part_in l (dmid l u) bs L M) as (_ & _ & _ & C); lra.
  - f_equal. apply (IH l (dmid l u) bs' L M) with y; auto; lra.
Qed.

(** ** Grids *)
Definition dgrid_at (G : dgrid) (ds : list nat) : dgrid := fold_left dchild ds G.
Definition xb (ds : list nat) : list bool := map Nat.odd ds.
Definition yb (ds : list nat) : list bool := map (fun i => Nat.odd (i / 2)) ds.

Lemma dgrid_at_part G ds : Forall (fun i => (i < 4)%nat) ds ->
  dxl (dgrid_at G ds) = fst (part (dxl G) (dxu G) (xb ds)) /\
  dxu (dgrid_at G ds) = snd (part (dxl G) (dxu G) (xb ds)) /\
  dyl (dgrid_at G ds) = fst (part (dyl G) (dyu G) (yb ds)) /\
  dyu (dgrid_at G ds) = snd (part (dyl G) (dyu G) (yb ds)) /\
  dnx (dgrid_at G ds) = dnx G /\ dny (dgrid_at G ds) = dny G.
Proof.
  unfold dgrid_at. revert G; induction ds as [|i ds IH]; intros G F.
  - cbn. auto 10.
  - inversion F as [|? ? Hi F']; subst.
    cbn [fold_left]. destruct (IH (dchild G i) F') as (A & B & C & D & E1 & E2). rewrite A, B, C, D, E1, E2.
    destruct i as [|[|[|[|i]]]]; [..|exfalso; lia]; cbn; auto 10.
Qed.

Lemma child_rect G i : (i < 4)%nat -> rect G -> rect (dchild G i).
Proof.
  intros Hi (A & B & C & D & X & Y).
  destruct (mid_between _ _ A B X) as (M & P & _). destruct (mid_between _ _ C D Y) as (M' & P' & _).
  unfold rect. destruct i as [|[|[|[|i]]]]; [..|exfalso; lia]; cbn [dchild dxl dxu dyl dyu];
    repeat match goal with |- _ /\ _ => split end; try assumption; lra.
Qed.
Lemma at_rect G ds : Forall (fun i => (i < 4)%nat) ds -> rect G -> rect (dgrid_at G ds).
Proof.
  unfold dgrid_at. revert G; induction ds as [|i ds IH]; intros G F P; [exact P|].
  inversion F; subst. cbn [fold_left]. apply IH; auto. apply child_rect; auto.
Qed.

Lemma child_within G i : (i < 4)%nat -> rect G -> forall x y,
  (dinterior (dchild G i) x y -> dinterior G x y) /\ (dinside (dchild G i) x y -> dinside G x y).
Proof.
  intros Hi (A & B & C & D & X & Y) x y.
  destruct (mid_between _ _ A B X) as (M & P & _). destruct (mid_between _ _ C D Y) as (M' & P' & _).
  unfold dinterior, dinside. destruct i as [|[|[|[|i]]]]; [..|exfalso; lia]; cbn [dchild dxl dxu dyl dyu]; split; intros; lra.
Qed.
Lemma at_within G ds : Forall (fun i => (i < 4)%nat) ds -> rect G -> forall x y,
  (dinterior (dgrid_at G ds) x y -> dinterior G x y) /\ (dinside (dgrid_at G ds) x y -> dinside G x y).
Proof.
  unfold dgrid_at. revert G; induction ds as [|i ds IH]; intros G F P x y; [split; auto|].
  inversion F; subst. cbn [fold_left]. destruct (IH (dchild G i)) with (x := x) (y := y) as [I1 I2]; auto.
  { apply child_rect; auto. }
  destruct (child_within G i) with (x := x) (y := y) as [J1 J2]; auto.
Qed.

Lemma digits_of f ds : In ds (leaf_paths f) -> Forall (fun i => (i < 4)%nat) ds.
Proof.
  revert ds; induction f as [o|a IHa b IHb c IHc d IHd]; intros ds; cbn [leaf_paths].
  - intros [<-|[]]. constructor.
  - rewrite !in_app_iff, !in_map_iff.
    intros [(p & <- & H)|[(p & <- & H)|[(p & <- & H)|(p & <- & H)]]]; constructor; auto; lia.
Qed.

Lemma dareas_sum f G : Rsum (map (fun ds => darea (dgrid_at G ds)) (leaf_paths f)) = darea G.
Proof.
  revert G; induction f as [o|a IHa b IHb c IHc d IHd]; intros G; cbn [leaf_paths].
  - cbn. unfold dgrid_at. cbn [fold_left]. ring.
  - assert (App : forall l l', Rsum (l ++ l') = Rsum l + Rsum l').
    { intros l l'. unfold Rsum. induction l as [|x l IH]; cbn [app fold_right]; [ring|rewrite IH; ring]. }
    rewrite !map_app, !App, !map_map.
    assert (E : forall i l, map (fun x => darea (dgrid_at G (i :: x))) l = map (fun x => darea (dgrid_at (dchild G i) x)) l)
      by reflexivity.
    rewrite !E, IHa, IHb, IHc, IHd. unfold darea. cbn [dchild dxl dxu dyl dyu]. ring.
Qed.

Lemma dleaves_cover f G x y : rect G -> dinside G x y ->
  exists ds, In ds (leaf_paths f) /\ dinside (dgrid_at G ds) x y.
Proof.
  revert G; induction f as [o|a IHa b IHb c IHc d IHd]; intros G P I; cbn [leaf_paths].
  - exists []. split; [left; reflexivity|exact I].
  - destruct I as [I1 I2].
    assert (S : forall i g (Hi : (i < 4)%nat)
        (IH : forall G, rect G -> dinside G x y -> exists ds, In ds (leaf_paths g) /\ dinside (dgrid_at G ds) x y),
        dinside (dchild G i) x y ->
        exists ds, In ds (map (cons i) (leaf_paths g)) /\ dinside (dgrid_at G ds) x y).
    { intros i g Hi IH J. destruct (IH (dchild G i)) as (ds & H & K); [apply child_rect; auto|exact J|].
      exists (i :: ds). split; [apply in_map; exact H|exact K]. }
    destruct (Rle_dec x (val (dmid (dxl G) (dxu G)))) as [X|X];
    destruct (Rle_dec y (val (dmid (dyl G) (dyu G)))) as [Y|Y].
    + destruct (S 0%nat a) as (ds & H & K); [lia|exact IHa|unfold dinside; cbn [dchild dxl dxu dyl dyu]; lra|].
      exists ds. rewrite !in_app_iff. auto.
    + destruct (S 2%nat c) as (ds & H & K); [lia|exact IHc|unfold dinside; cbn [dchild dxl dxu dyl dyu]; lra|].
      exists ds. rewrite !in_app_iff. auto.
    + destruct (S 1%nat b) as (ds & H & K); [lia|exact IHb|unfold dinside; cbn [dchild dxl dxu dyl dyu]; lra|].
      exists ds. rewrite !in_app_iff. auto.
    + destruct (S 3%nat d) as (ds & H & K); [lia|exact IHd|unfold dinside; cbn [dchild dxl dxu dyl dyu]; lra|].
      exists ds. rewrite !in_app_iff. auto.
Qed.

(** Different leaves: at the first digit that differs they lie in different children. *)
Lemma leaves_part f ds ds' : In ds (leaf_paths f) -> In ds' (leaf_paths f) -> ds <> ds' ->
  exists p i j s s', ds = p ++ i :: s /\ ds' = p ++ j :: s' /\ i <> j.
Proof.
  revert ds ds'; induction f as [o|a IHa b IHb c IHc d IHd]; intros ds ds'; cbn [leaf_paths].
  - intros [<-|[]] [<-|[]] H. contradiction.
  - assert (K : forall i g (IH : forall ds ds', In ds (leaf_paths g) -> In ds' (leaf_paths g) -> ds <> ds' ->
        exists p i j s s', ds = p ++ i :: s /\ ds' = p ++ j :: s' /\ i <> j) q q',
        In q (leaf_paths g) -> In q' (leaf_paths g) -> i :: q <> i :: q' ->
        exists p k j s s', i :: q = p ++ k :: s /\ i :: q' = p ++ j :: s' /\ k <> j).
    { intros i g IH q q' Q Q' N. destruct (IH q q' Q Q') as (p & k & j & s & s' & -> & -> & H); [congruence|].
      exists (i :: p), k, j, s, s'. auto. }
    assert (L : forall (i j : nat) (q q' : list nat), i <> j -> exists p k l s s', i :: q = p ++ k :: s /\ j :: q' = p ++ l :: s' /\ k <> l).
    { intros i j q q' N. exists [], i, j, q, q'. auto. }
    rewrite !in_app_iff, !in_map_iff.
    intros [(p & <- & H)|[(p & <- & H)|[(p & <- & H)|(p & <- & H)]]]
           [(p' & <- & H')|[(p' & <- & H')|[(p' & <- & H')|(p' & <- & H')]]] N;
      first [apply (K _ a); assumption | apply (K _ b); assumption | apply (K _ c); assumption
            | apply (K _ d); assumption | apply L; discriminate].
Qed.

Lemma dgrid_at_app G p q : dgrid_at G (p ++ q) = dgrid_at (dgrid_at G p) q.
Proof. unfold dgrid_at. apply fold_left_app. Qed.

(** Two different children: on different sides of the middle in x or in y. *)
Lemma children_apart G i j : (i < 4)%nat -> (j < 4)%nat -> i <> j -> rect G ->
  (val (dxu (dchild G i)) <= val (dxl (dchild G j)) \/ val (dxu (dchild G j)) <= val (dxl (dchild G i))) \/
  (val (dyu (dchild G i)) <= val (dyl (dchild G j)) \/ val (dyu (dchild G j)) <= val (dyl (dchild G i))).
Proof.
  intros Hi Hj N (A & B & C & D & X & Y).
  destruct (mid_between _ _ A B X) as (M & P & _). destruct (mid_between _ _ C D Y) as (M' & P' & _).
  destruct i as [|[|[|[|i]]]]; [..|exfalso; lia]; (destruct j as [|[|[|[|j]]]]; [..|exfalso; lia]);
    try contradiction; cbn [dchild dxl dxu dyl dyu]; lra.
Qed.

Lemma at_bounds G ds : Forall (fun i => (i < 4)%nat) ds -> rect G ->
  val (dxl G) <= val (dxl (dgrid_at G ds)) /\ val (dxu (dgrid_at G ds)) <= val (dxu G) /\
  val (dyl G) <= val (dyl (dgrid_at G ds)) /\ val (dyu (dgrid_at G ds)) <= val (dyu G).
Proof.
  intros F (A & B & C & D & X & Y). destruct (dgrid_at_part G ds F) as (E1 & E2 & E3 & E4 & _).
  rewrite E1, E2, E3, E4.
  destruct (part_in _ _ (xb ds) A B X) as (_ & _ & X1 & X2). destruct (part_in _ _ (yb ds) C D Y) as (_ & _ & Y1 & Y2). lra.
Qed.

Lemma leaves_apart f G ds ds' : rect G -> In ds (leaf_paths f) -> In ds' (leaf_paths f) -> ds <> ds' ->
  let A := dgrid_at G ds in let B := dgrid_at G ds' in
  (val (dxu A) <= val (dxl B) \/ val (dxu B) <= val (dxl A)) \/
  (val (dyu A) <= val (dyl B) \/ val (dyu B) <= val (dyl A)).
Proof.
  intros P H H' N A B. pose proof (digits_of _ _ H) as F. pose proof (digits_of _ _ H') as F'.
  destruct (leaves_part f ds ds' H H' N) as (p & i & j & s & s' & -> & -> & Nij).
  apply Forall_app in F as [Fp F]. apply Forall_app in F' as [_ F'].
  inversion F as [|? ? Fi Fs]; subst. inversion F' as [|? ? Fj Fs']; subst.
  unfold A, B. rewrite !dgrid_at_app. pose proof (at_rect G p Fp P) as Pp. set (g := dgrid_at G p) in *.
  change (dgrid_at g (i :: s)) with (dgrid_at (dchild g i) s).
  change (dgrid_at g (j :: s')) with (dgrid_at (dchild g j) s').
  pose proof (at_bounds (dchild g i) s Fs (child_rect g i Fi Pp)).
  pose proof (at_bounds (dchild g j) s' Fs' (child_rect g j Fj Pp)).
  pose proof (children_apart g i j Fi Fj Nij Pp). lra.
Qed.

Lemma dleaves_disjoint f G ds ds' x y : rect G -> In ds (leaf_paths f) -> In ds' (leaf_paths f) -> ds <> ds' ->
  dinterior (dgrid_at G ds) x y -> dinterior (dgrid_at G ds') x y -> False.
Proof.
  intros P H H' N I I'. pose proof (leaves_apart f G ds ds' P H H' N) as K. cbv zeta in K.
  unfold dinterior in *. lra.
Qed.

Lemma dleaves_share_x f G ds ds' : rect G -> In ds (leaf_paths f) -> In ds' (leaf_paths f) -> ds <> ds' ->
  let A := dgrid_at G ds in let B := dgrid_at G ds' in dmeet_x A B ->
  (val (dxu A) = val (dxl B) \/ val (dxu B) = val (dxl A)) /\
  rnested (val (dyl A)) (val (dyu A)) (val (dyl B)) (val (dyu B)) /\
  (length ds = length ds' -> dyl A = dyl B /\ dyu A = dyu B).
Proof.
  intros P H H' N A B (M1 & M2 & y & Y & Y'). pose proof (leaves_apart f G ds ds' P H H' N) as K. cbv zeta in K.
  fold A B in K. split; [destruct K as [[K|K]|[K|K]]; [left|right|exfalso|exfalso]; lra|].
  pose proof (digits_of _ _ H) as F. pose proof (digits_of _ _ H') as F'. destruct P as (P1 & P2 & P3 & P4 & P5 & P6).
  destruct (dgrid_at_part G ds F) as (_ & _ & E3 & E4 & _). destruct (dgrid_at_part G ds' F') as (_ & _ & E3' & E4' & _).
  fold A in E3, E4. fold B in E3', E4'. rewrite E3, E4, E3', E4' in *. split.
  - destruct (part_tri _ _ (yb ds) (yb ds') P3 P4 P6) as [T|[T|T]]; [exact T|exfalso; lra..].
  - intros L. rewrite (part_same _ _ (yb ds) (yb ds') P3 P4 P6) with (y := y); auto. unfold yb. rewrite !map_length. exact L.
Qed.
Lemma dleaves_share_y f G ds ds' : rect G -> In ds (leaf_paths f) -> In ds' (leaf_paths f) -> ds <> ds' ->
  let A := dgrid_at G ds in let B := dgrid_at G ds' in dmeet_y A B ->
  (val (dyu A) = val (dyl B) \/ val (dyu B) = val (dyl A)) /\
  rnested (val (dxl A)) (val (dxu A)) (val (dxl B)) (val (dxu B)) /\
  (length ds = length ds' -> dxl A = dxl B /\ dxu A = dxu B).
Proof.
  intros P H H' N A B (M1 & M2 & y & Y & Y'). pose proof (leaves_apart f G ds ds' P H H' N) as K. cbv zeta in K.
  fold A B in K. split; [destruct K as [[K|K]|[K|K]]; [exfalso|exfalso|left|right]; lra|].
  pose proof (digits_of _ _ H) as F. pose proof (digits_of _ _ H') as F'. destruct P as (P1 & P2 & P3 & P4 & P5 & P6).
  destruct (dgrid_at_part G ds F) as (E3 & E4 & _). destruct (dgrid_at_part G ds' F') as (E3' & E4' & _).
  fold A in E3, E4. fold B in E3', E4'. rewrite E3, E4, E3', E4' in *. split.
  - destruct (part_tri _ _ (xb ds) (xb ds') P1 P2 P5) as [T|[T|T]]; [exact T|exfalso; lra..].
  - intros L. rewrite (part_same _ _ (xb ds) (xb ds') P1 P2 P5) with (y := y); auto. unfold xb. rewrite !map_length. exact L.
Qed.
