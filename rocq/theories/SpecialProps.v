(** Proofs of the properties C07, C08, C13, C14, C15: products, solves and
    special matrices. *)
From Coq Require Import Permutation.
From Verif Require Import Base VectorModel MatrixModel LinSpec LinSpec2.
From Verif Require Import MatProofs MatProofs2 MatProofs3 LinProofs Gauss LinProps.

(** [C07] Products of nonempty conforming matrices are the mathematical ones;
    non-conforming shapes are rejected.  Missing: shapes with a zero dimension,
    see [empty_products_refuted]. *)
Lemma products_partial_pf :
  forall (a b : matrix Qc) (x : list Qc), well_formed a -> well_formed b ->
  (length x = nc a -> nc a <> 0 -> exists y, mulv a x = Ok y /\ is_product_mv a x y) /\
  (length x <> nc a -> mulv a x = Throw invalid_argument) /\
  (nr b = nc a -> nr a <> 0 -> nc a <> 0 -> nc b <> 0 ->
     exists c, mulm a b = Ok c /\ is_product_mm a b c) /\
  (nr b <> nc a -> mulm a b = Throw invalid_argument).
Proof.
  intros a b x Ha Hb. repeat split.
  - intros Hx Hn. rewrite mulv_ok by auto. eexists; split; [reflexivity|].
    split; [apply vec_of_length|]. intros i Hi. unfold vval at 1. rewrite nth_vec_of by auto.
    apply sum_ext. intros j Hj. rewrite val_ent by auto. reflexivity.
  - intros Hx. unfold mulv. destruct (Nat.eqb_spec (nc a) (length x)); [lia|reflexivity].
  - intros Hab H1 H2 H3. rewrite mulm_ok by auto. eexists; split; [reflexivity|].
    split; [apply mat_of_wf|]. split; [reflexivity|]. split; [reflexivity|].
    intros i j Hi Hj. rewrite val_mat_of by auto.
    apply sum_ext. intros k Hk. rewrite !val_ent by (auto; lia). reflexivity.
  - intros Hab. unfold mulm. destruct (Nat.eqb_spec (nc a) (nr b)); [lia|reflexivity].
Qed.

Lemma products_example_expf :
  let a := Mat 2 3 (map q [1; 2; 3; 4; 5; 6]%Z) in
  let b := Mat 3 1 (map q [7; 8; 9]%Z) in
  mulv a (map q [7; 8; 9]%Z) = Ok (map q [50; 122]%Z) /\
  mulm a b = Ok (Mat 2 1 (map q [50; 122]%Z)) /\ mulm b a = Throw invalid_argument.
Proof. repeat split; qcompute. Qed.

(** [C07] The full property is false: for an empty inner dimension the product
    exists mathematically (it is zero) but BLAS rejects the leading dimension 0. *)
Lemma empty_products_refuted_pf :
  exists (a b : matrix Qc) (x : list Qc), well_formed a /\ well_formed b /\
    length x = nc a /\ nr b = nc a /\
    (exists y, is_product_mv a x y) /\ mulv a x = Throw illegal_blas_argument /\
    (exists c, is_product_mm a b c) /\ mulm a b = Throw illegal_blas_argument.
Proof.
  exists (Mat 1 0 []), (Mat 0 1 []), []. repeat split.
  - exists [0%Qc]. split; [reflexivity|]. intros i Hi. cbn [nr] in Hi.
    destruct i; [reflexivity|lia].
  - exists (Mat 1 1 [0%Qc]). repeat split. intros i j Hi Hj. cbn [nr nc] in *.
    destruct i, j; try lia. reflexivity.
Qed.

(** [C08] Solving: for any LAPACK that meets the contract, every nonsingular
    system of at least one unknown, and every right-hand side.  The solution is
    unique.  Missing: the singular case, see [solve_singular_refuted]. *)
Lemma solve_partial_pf :
  forall (gesv : gesv_t), gesv_contract gesv ->
  forall (a : matrix Qc), nonsingular a -> nr a <> 0 ->
  (forall b, length b = nr a -> exists x, solvev gesv a b = Ok x /\ length x = nr a /\
     is_product_mv a x b /\
     (forall x', length x' = nr a -> is_product_mv a x' b -> x' = x)) /\
  (forall b, well_formed b -> nr b = nr a -> exists x, solvem gesv a b = Ok x /\
     nr x = nr a /\ is_product_mm a x b) /\
  (forall b, length b <> nr a -> solvev gesv a b = Throw invalid_argument) /\
  (forall b, nr b <> nr a -> solvem gesv a b = Throw invalid_argument).
Proof.
  intros gesv G a Hns Hn. pose proof Hns as (Hw & Hsq & Hz). repeat split.
  - intros b Hb. destruct (solvev_ok gesv a b G Hns Hn Hb) as (x & E & Hl & Hx).
    exists x. split; auto. split; auto.
    assert (Hp : is_product_mv a x b).
    { split; [auto|]. intros i Hi. rewrite <- Hx by auto. rewrite <- Hsq.
      apply sum_ext. intros j Hj. rewrite val_ent by (auto; lia). reflexivity. }
    split; [exact Hp|]. intros x' Hl' Hp'.
    apply (list_ext 0%Qc); [lia|]. intros j Hj.
    assert (Hd : (vval x' j - vval x j = 0)%Qc).
    { apply (Hz (fun j => vval x' j - vval x j)%Qc); [|lia]. intros i Hi.
      rewrite (sum_ext _ _ (fun j => val a i j * vval x' j - val a i j * vval x j)%Qc)
        by (intros; ring).
      rewrite sum_minus. destruct Hp as (_ & Hp). destruct Hp' as (_ & Hp').
      specialize (Hp i Hi). specialize (Hp' i Hi). rewrite <- Hsq in Hp, Hp'.
      rewrite <- Hp, <- Hp'. ring. }
    fold (vval x' j) (vval x j).
    transitivity (vval x j + (vval x' j - vval x j))%Qc; [ring|]. rewrite Hd. ring.
  - intros b Hb Hab. destruct (solvem_ok gesv a b G Hns Hn Hb Hab) as (x & E & Hwx & Hrx & Hcx & Hx).
    exists x. split; auto. split; auto. split; [exact Hb|]. split; [auto|]. split; [auto|].
    intros i j Hi Hj. rewrite val_ent by (auto; lia). rewrite <- Hx by (auto; lia).
    rewrite <- Hsq. apply sum_ext. intros k Hk. rewrite !val_ent by (auto; lia). reflexivity.
  - intros b Hb. unfold solvev. rewrite Hsq, Nat.eqb_refl. cbn [negb].
    destruct (Nat.eqb_spec (nc a) (length b)); [lia|reflexivity].
  - intros b Hb. unfold solvem. rewrite Hsq, Nat.eqb_refl. cbn [negb].
    destruct (Nat.eqb_spec (nc a) (nr b)); [lia|reflexivity].
Qed.

(** The contract is satisfiable (by Gaussian elimination), and a nonsymmetric
    matrix meets the hypotheses. *)
Lemma solve_example_expf :
  gesv_contract gauss_gesv /\
  nonsingular (Mat 2 2 (map q [2; 1; 0; 1]%Z)) /\
  solvev gauss_gesv (Mat 2 2 (map q [2; 1; 0; 1]%Z)) (map q [7; 3]%Z) = Ok (map q [2; 3]%Z).
Proof.
  split; [exact gauss_gesv_contract|]. split.
  - split; [reflexivity|]. split; [reflexivity|]. cbn [nr]. intros z Hz.
    pose proof (Hz 0%nat ltac:(lia)) as E0. pose proof (Hz 1%nat ltac:(lia)) as E1.
    cbn [sum] in E0, E1. unfold val, entry in E0, E1. cbn in E0, E1.
    unfold q in E0, E1.
    assert (Z1 : z 1 = 0%Qc).
    { transitivity (0 + Q2Qc 0 * z 0%nat + Q2Qc 1 * z 1%nat)%Qc; [ring|exact E1]. }
    rewrite Z1 in E0.
    assert (Z0 : z 0 = 0%Qc).
    { transitivity (Q2Qc (1 # 2) * (0 + Q2Qc 2 * z 0%nat + Q2Qc 1 * 0))%Qc; [ring|].
      etransitivity; [apply f_equal; exact E0|ring]. }
    intros j Hj. destruct j as [|[|j]]; [exact Z0|exact Z1|lia].
  - qcompute.
Qed.

(** [C08] The full property is false: every LAPACK that meets the contract
    reports a singular matrix only through INFO, which [solve] ignores; the
    caller gets a normal return, and the result is not a solution. *)
Lemma solve_singular_refuted_pf :
  exists (a : matrix Qc) (b x : list Qc),
    well_formed a /\ nr a = nc a /\ ~ nonsingular a /\ length b = nr a /\
    (forall gesv, gesv_contract gesv -> solvev gesv a b = Ok x) /\
    ~ is_product_mv a x b.
Proof.
  exists (Mat 1 1 [0%Qc]), [1%Qc], [1%Qc]. repeat split.
  - intros (_ & _ & H). specialize (H (fun _ => 1%Qc)).
    assert (E : 1%Qc = 0%Qc); [|discriminate].
    apply H with (j := 0%nat); [|cbn; lia]. intros i Hi. cbn [nr] in *.
    destruct i; [|lia]. reflexivity.
  - intros gesv G. unfold solvev. cbn [nr nc length Nat.eqb negb].
    change (mT (Mat 1 1 [0%Qc])) with (Ok (Mat 1 1 [0%Qc])). cbn [bind nr dat Nat.ltb Nat.leb].
    pose proof (gesv_singular _ G 1 1 [0%Qc] [1%Qc]) as H.
    destruct (gesv 1 1 [0%Qc] [1%Qc]) as [x info]. cbn [fst].
    destruct H as (_ & ->); auto.
    intros H. specialize (H (fun _ => 1%Qc)). assert (E : 1%Qc = 0%Qc); [|discriminate].
    apply H with (j := 0%nat); [|lia]. intros i Hi. destruct i; [|lia]. reflexivity.
  - intros (_ & H). specialize (H 0 ltac:(cbn; lia)). vm_compute in H. discriminate.
Qed.

(** * Interpolation *)
Lemma at_centres_length f x0 h n : length (at_centres f x0 h n) = n.
Proof. unfold at_centres. rewrite map_length, seq_length. reflexivity. Qed.

Lemma at_centres_vval f x0 h n i : i < n -> vval (at_centres f x0 h n) i = f (centre x0 h i).
Proof. intros Hi. unfold vval, at_centres. apply (nth_map_seq (fun i => f (centre x0 h i))); auto. Qed.

Lemma at_centres_vec f x0 h n : at_centres f x0 h n = vec_of n (fun i => f (centre x0 h i)).
Proof.
  apply (vec_is 0%Qc); [apply at_centres_length|]. intros i Hi.
  apply (at_centres_vval f x0 h n i Hi).
Qed.

(** Sums with two or three nonzero terms. *)
Lemma sum_pick2 n a b (ca cb : Qc) (x : nat -> Qc) : a < n -> b < n -> a <> b ->
  (sum n (fun j => (if j =? a then ca else if j =? b then cb else 0) * x j) = ca * x a + cb * x b)%Qc.
Proof.
  intros Ha Hb Hab.
  rewrite (sum_ext _ _ (fun j => (ca * (delta a j * x j)) + (cb * (delta b j * x j)))%Qc).
  - rewrite sum_plus, !sum_scal_l, !sum_delta_l by auto. reflexivity.
  - intros j Hj. unfold delta. rewrite (Nat.eqb_sym a j), (Nat.eqb_sym b j).
    destruct (Nat.eqb_spec j a), (Nat.eqb_spec j b); subst; try lia; ring.
Qed.

Lemma sum_pick3 n a b c (ca cb cc : Qc) (x : nat -> Qc) :
  a < n -> b < n -> c < n -> a <> b -> a <> c -> b <> c ->
  (sum n (fun j => (if j =? a then ca else if j =? b then cb else if j =? c then cc else 0) * x j)
   = ca * x a + cb * x b + cc * x c)%Qc.
Proof.
  intros Ha Hb Hc Hab Hac Hbc.
  rewrite (sum_ext _ _ (fun j => (ca * (delta a j * x j)) + (cb * (delta b j * x j))
                               + (cc * (delta c j * x j)))%Qc).
  - rewrite !sum_plus, !sum_scal_l, !sum_delta_l by auto. reflexivity.
  - intros j Hj. unfold delta. rewrite (Nat.eqb_sym a j), (Nat.eqb_sym b j), (Nat.eqb_sym c j).
    destruct (Nat.eqb_spec j a), (Nat.eqb_spec j b), (Nat.eqb_spec j c); subst; try lia; ring.
Qed.

(** What each row of the coarse-to-fine matrix does. *)
Lemma c2f_row c i (x : nat -> Qc) : 3 <= c -> i < 2 * c ->
  (sum c (fun j => c2f_entry c i j * x j) =
   if i =? 0 then edge0 * x 0%nat + edge1 * x 1%nat + edge2 * x 2%nat
   else if i =? 2 * c - 1 then edge0 * x (c - 1)%nat + edge1 * x (c - 2)%nat + edge2 * x (c - 3)%nat
   else if i mod 2 =? 1 then threeq * x (i / 2)%nat + oneq * x (i / 2 + 1)%nat
   else threeq * x (i / 2)%nat + oneq * x (i / 2 - 1)%nat)%Qc.
Proof.
  intros Hc Hi. unfold c2f_entry.
  destruct (Nat.eqb_spec i 0); [apply sum_pick3; lia|].
  destruct (Nat.eqb_spec i (2 * c - 1)); [apply sum_pick3; lia|].
  parity i.
  - cbn [Nat.eqb]. apply sum_pick2; lia.
  - cbn [Nat.eqb]. apply sum_pick2; lia.
Qed.


Lemma Qc_of_nat_2mul k : Qc_of_nat (2 * k) = (two * Qc_of_nat k)%Qc.
Proof. rewrite Qc_of_nat_mul. reflexivity. Qed.

Lemma Qc_of_nat_sub a b : b <= a -> Qc_of_nat (a - b) = (Qc_of_nat a - Qc_of_nat b)%Qc.
Proof.
  intros H. replace (Qc_of_nat a) with (Qc_of_nat ((a - b) + b)) by (f_equal; lia).
  rewrite Qc_of_nat_add. ring.
Qed.

(** [C13] Coarse-to-fine interpolation for at least six fine cells. *)
Lemma coarse_to_fine_partial_pf :
  forall (n : nat) (x0 h : Qc), 3 <= n ->
  exists C, Coarse2Fine (2 * n) = Ok C /\ well_formed C /\ nr C = 2 * n /\ nc C = n /\
    (forall a b, mulv C (at_centres (linear a b) x0 (two * h) n)
                 = Ok (at_centres (linear a b) x0 h (2 * n))) /\
    (forall a b c, exists y, mulv C (at_centres (quadratic a b c) x0 (two * h) n) = Ok y /\
       vval y 0 = quadratic a b c (centre x0 h 0) /\
       vval y (2 * n - 1) = quadratic a b c (centre x0 h (2 * n - 1))).
Proof.
  intros n x0 h Hn. rewrite Coarse2Fine_ok by auto.
  set (C := mat_of (2 * n) n (c2f_entry n)).
  exists C. split; [reflexivity|]. split; [apply mat_of_wf|]. split; [reflexivity|]. split; [reflexivity|].
  assert (Hmul : forall x, length x = n -> mulv C x = Ok (vec_of (2 * n) (fun i =>
     sum n (fun j => c2f_entry n i j * vval x j)%Qc))).
  { intros x Hx. rewrite mulv_ok by (try apply mat_of_wf; unfold C; cbn [nr nc mat_of]; auto; lia).
    f_equal. unfold C; cbn [nr nc mat_of]. apply vec_of_ext. intros i Hi.
    apply sum_ext. intros j Hj. rewrite mat_of_ent by auto. reflexivity. }
  assert (HQ : forall k, Qc_of_nat (n - k) = (Qc_of_nat n - Qc_of_nat k)%Qc \/ n < k)
    by (intros k; destruct (le_lt_dec k n); [left; apply Qc_of_nat_sub; auto|right; auto]).
  split.
  - intros a b. rewrite Hmul by apply at_centres_length. f_equal.
    rewrite (at_centres_vec _ x0 h). apply vec_of_ext. intros i Hi.
    rewrite c2f_row by auto.
    destruct (Nat.eqb_spec i 0) as [->|Hi0].
    { rewrite !at_centres_vval by lia. unfold linear, centre, edge0, edge1, edge2, two.
      change (Qc_of_nat 0) with (Q2Qc 0). change (Qc_of_nat 1) with (Q2Qc 1).
      change (Qc_of_nat 2) with (Q2Qc (2 # 1)). field. }
    destruct (Nat.eqb_spec i (2 * n - 1)) as [->|Hil].
    { rewrite !at_centres_vval by lia. unfold linear, centre, edge0, edge1, edge2, two.
      rewrite !Qc_of_nat_sub by lia. rewrite Qc_of_nat_2mul. unfold two.
      change (Qc_of_nat 1) with (Q2Qc 1).
      change (Qc_of_nat 2) with (Q2Qc (2 # 1)). change (Qc_of_nat 3) with (Q2Qc (3 # 1)). field. }
    parity i; cbn [Nat.eqb]; rewrite !at_centres_vval by lia; unfold linear, centre, threeq, oneq, two.
    + rewrite Qc_of_nat_sub by lia. rewrite Qc_of_nat_2mul. unfold two. change (Qc_of_nat 1) with (Q2Qc 1). field.
    + rewrite !Qc_of_nat_add, Qc_of_nat_2mul. unfold two. change (Qc_of_nat 1) with (Q2Qc 1). field.
  - intros a b c. rewrite Hmul by apply at_centres_length. eexists; split; [reflexivity|].
    unfold vval at 1 3. rewrite !nth_vec_of by lia. rewrite !c2f_row by lia.
    split.
    + cbn [Nat.eqb]. rewrite !at_centres_vval by lia. unfold quadratic, centre, edge0, edge1, edge2, two.
      change (Qc_of_nat 0) with (Q2Qc 0). change (Qc_of_nat 1) with (Q2Qc 1).
      change (Qc_of_nat 2) with (Q2Qc (2 # 1)). field.
    + destruct (Nat.eqb_spec (2 * n - 1) 0); [lia|]. rewrite Nat.eqb_refl.
      rewrite !at_centres_vval by lia. unfold quadratic, centre, edge0, edge1, edge2, two.
      rewrite !Qc_of_nat_sub by lia. rewrite Qc_of_nat_2mul. unfold two.
      change (Qc_of_nat 1) with (Q2Qc 1).
      change (Qc_of_nat 2) with (Q2Qc (2 # 1)). change (Qc_of_nat 3) with (Q2Qc (3 # 1)). field.
Qed.

Lemma coarse_to_fine_example_expf :
  (C <- Coarse2Fine 6 ;; mulv C (map q [1; 3; 5]%Z)) =
  Ok [Q2Qc (1 # 2); Q2Qc (3 # 2); Q2Qc (5 # 2); Q2Qc (7 # 2); Q2Qc (9 # 2); Q2Qc (11 # 2)].
Proof. qcompute. Qed.

(** [C13] The full property is false: with four fine cells the last row is zero,
    so even the constant 1 is not reproduced; with two fine cells the call
    throws (reads and writes one past the row and then out of range). *)
Lemma coarse_to_fine_refuted_pf :
  (exists C y, Coarse2Fine 4 = Ok C /\ mulv C (at_centres (linear 1 0) 0 two 2) = Ok y /\
     y <> at_centres (linear 1 0) 0 1 4) /\
  raises (Coarse2Fine 2).
Proof.
  split.
  - eexists; eexists. split; [vm_compute; reflexivity|]. split; [vm_compute; reflexivity|].
    intros E. assert (H : forall i, vval (at_centres (linear 1 0) 0 1 4) i = vval _ i)
      by (intros i; rewrite <- E; reflexivity).
    specialize (H 3). vm_compute in H. discriminate.
  - eexists. vm_compute. reflexivity.
Qed.

(** [C14] Fine-to-coarse interpolation averages neighbouring pairs and conserves
    the total, for every size; after coarse-to-fine interpolation it reproduces
    linear data for at least three coarse cells.  Missing: the last statement
    for one and two coarse cells, see [fine_after_coarse_refuted]. *)
Lemma fine_to_coarse_partial_pf :
  forall n : nat, n <> 0 ->
  exists F, Fine2Coarse n = Ok F /\ well_formed F /\ nr F = n /\ nc F = 2 * n /\
    (forall v, length v = 2 * n -> exists w, mulv F v = Ok w /\ length w = n /\
       (forall i, i < n -> vval w i = (Q2Qc (1 # 2) * (vval v (2 * i) + vval v (2 * i + 1)))%Qc) /\
       (forall h, two * h * total w = h * total v)%Qc) /\
    (3 <= n -> forall a b x0 h, exists C, Coarse2Fine (2 * n) = Ok C /\
       (y <- mulv C (at_centres (linear a b) x0 h n) ;; mulv F y)
       = Ok (at_centres (linear a b) x0 h n)).
Proof.
  intros n Hn. rewrite Fine2Coarse_ok. eexists; split; [reflexivity|].
  split; [apply mat_of_wf|]. split; [reflexivity|]. split; [reflexivity|].
  assert (Hmul : forall v, length v = 2 * n ->
    mulv (mat_of n (2 * n) (fun i j => if (j =? 2 * i) || (j =? 2 * i + 1) then half else 0%Qc)) v
    = Ok (vec_of n (fun i => half * (vval v (2 * i)%nat + vval v (2 * i + 1)%nat))%Qc)).
  { intros v Hv. rewrite mulv_ok by (try apply mat_of_wf; cbn [nr nc mat_of]; auto; lia).
    f_equal. cbn [nr nc mat_of]. apply vec_of_ext. intros i Hi.
    rewrite (sum_ext _ _ (fun j => (if j =? 2 * i then half else if j =? 2 * i + 1 then half else 0)
                                    * vval v j)%Qc).
    - rewrite sum_pick2 by lia. ring.
    - intros j Hj. rewrite mat_of_ent by auto.
      destruct (j =? 2 * i), (j =? 2 * i + 1); reflexivity. }
  split.
  - intros v Hv. rewrite Hmul by auto. eexists; split; [reflexivity|].
    split; [apply vec_of_length|]. split.
    + intros i Hi. unfold vval at 1. rewrite nth_vec_of by auto. reflexivity.
    + intros h. unfold total. rewrite vec_of_length, Hv.
      rewrite (sum_ext n _ (fun i => half * (vval v (2 * i)%nat + vval v (2 * i + 1)%nat))%Qc)
        by (intros i Hi; unfold vval at 1; rewrite nth_vec_of by auto; reflexivity).
      rewrite sum_scal_l.
      assert (HS : forall k f, (sum (2 * k) f = sum k (fun i => f (2 * i)%nat + f (2 * i + 1)%nat))%Qc).
      { induction k as [|k IH]; intros f; [reflexivity|].
        replace (2 * S k) with (S (S (2 * k))) by lia. cbn [sum]. rewrite IH.
        replace (2 * k + 1) with (S (2 * k)) by lia. ring. }
      rewrite HS. unfold two, half. field.
  - intros H3 a b x0 h.
    destruct (coarse_to_fine_partial_pf n x0 (half * h)%Qc H3) as (C & EC & _ & _ & _ & HC & _).
    exists C. split; [exact EC|]. specialize (HC a b).
    replace (two * (half * h))%Qc with h in HC by (unfold two, half; field).
    rewrite HC. cbn [bind]. rewrite Hmul by apply at_centres_length. f_equal.
    rewrite (at_centres_vec _ x0 h). apply vec_of_ext. intros i Hi.
    rewrite !at_centres_vval by lia. unfold linear, centre, half.
    rewrite !Qc_of_nat_add, Qc_of_nat_2mul. unfold two. change (Qc_of_nat 1) with (Q2Qc 1). field.
Qed.

Lemma fine_to_coarse_example_expf :
  (F <- Fine2Coarse 2 ;; mulv F (map q [1; 3; 5; 9]%Z)) = Ok (map q [2; 7]%Z).
Proof. qcompute. Qed.

(** [C14] The full property is false for two coarse cells. *)
Lemma fine_after_coarse_refuted_pf :
  exists C F y, Coarse2Fine 4 = Ok C /\ Fine2Coarse 2 = Ok F /\
    (z <- mulv C (at_centres (linear 1 0) 0 1 2) ;; mulv F z) = Ok y /\
    y <> at_centres (linear 1 0) 0 1 2.
Proof.
  do 3 eexists. split; [vm_compute; reflexivity|]. split; [vm_compute; reflexivity|].
  split; [vm_compute; reflexivity|].
  intros E. assert (H : forall i, vval (at_centres (linear 1 0) 0 1 2) i = vval _ i)
      by (intros i; rewrite <- E; reflexivity).
  specialize (H 1). vm_compute in H. discriminate.
Qed.

(** * Block diagonal *)
Lemma bdo_row ds : (forall d, In d ds -> well_formed d) ->
  forall xs i, map (@length Qc) xs = map (fun d => nc d) ds -> i < rows_of ds ->
  exists k, k < length ds /\ i < block_start (map (fun d => nr d) ds) k + nr (nth k ds (Mat 0 0 [])) /\
    block_start (map (fun d => nr d) ds) k <= i /\
    (sum (cols_of ds) (fun j => match bdo ds i j with Some x => x | None => 0 end * vval (concat xs) j)
     = sum (nc (nth k ds (Mat 0 0 [])))
        (fun j => qent (nth k ds (Mat 0%nat 0%nat [])) (i - block_start (map (fun d => nr d) ds) k) j
                  * vval (nth k xs []) j))%Qc.
Proof.
  induction ds as [|d ds IH]; intros Hds xs i Hx Hi; [unfold rows_of in Hi; simpl in Hi; lia|].
  destruct xs as [|x xs]; [discriminate|]. simpl in Hx. injection Hx as Hxd Hx.
  change (cols_of (d :: ds)) with (nc d + cols_of ds).
  change (rows_of (d :: ds)) with (nr d + rows_of ds) in Hi.
  rewrite sum_app.
  destruct (Nat.lt_ge_cases i (nr d)) as [Hlt|Hge].
  - exists 0. cbn [length nth map block_start]. repeat split; try lia.
    rewrite (sum_zero (cols_of ds)).
    + rewrite Qcplus_0_r. apply sum_ext. intros j Hj. cbn [bdo].
      destruct (Nat.ltb_spec i (nr d)); [|lia]. destruct (Nat.ltb_spec j (nc d)); [|lia].
      cbn [andb concat]. rewrite Nat.sub_0_r. f_equal. unfold vval. rewrite app_nth1 by lia. reflexivity.
    + intros j Hj. cbn [bdo]. destruct (Nat.ltb_spec i (nr d)); [|lia].
      destruct (Nat.ltb_spec (nc d + j) (nc d)); [lia|].
      destruct (Nat.leb_spec (nr d) i); [lia|]. cbn [andb]. ring.
  - destruct (IH ltac:(intros; apply Hds; simpl; auto) xs (i - nr d) Hx ltac:(lia))
      as (k & Hk & H1 & H2 & E).
    exists (S k). cbn [length nth map block_start]. repeat split; try lia.
    rewrite (sum_zero (nc d)).
    + rewrite Qcplus_0_l. replace (i - (nr d + _)) with (i - nr d - block_start (map (fun d => nr d) ds) k) by lia.
      rewrite <- E. apply sum_ext. intros j Hj. cbn [bdo].
      destruct (Nat.ltb_spec i (nr d)); [lia|].
      destruct (Nat.leb_spec (nr d) i); [|lia]. destruct (Nat.leb_spec (nc d) (nc d + j)); [|lia].
      cbn [andb concat]. rewrite Nat.add_comm, Nat.add_sub. f_equal. unfold vval.
      rewrite app_nth2 by lia. f_equal. lia.
    + intros j Hj. cbn [bdo]. destruct (Nat.ltb_spec i (nr d)); [lia|].
      destruct (Nat.leb_spec (nc d) j); [lia|].
      rewrite andb_false_r. cbn [andb]. ring.
Qed.

Lemma bdo_off ds : forall i j,
  (forall k, k < length ds ->
     ~ (block_start (map (fun d => nr d) ds) k <= i < block_start (map (fun d => nr d) ds) k + nr (nth k ds (Mat 0 0 [])) /\
        block_start (map (fun d => nc d) ds) k <= j < block_start (map (fun d => nc d) ds) k + nc (nth k ds (Mat 0 0 [])))) ->
  bdo ds i j = None.
Proof.
  induction ds as [|d ds IH]; intros i j H; [reflexivity|]. cbn [bdo].
  pose proof (H 0 ltac:(simpl; lia)) as H0. cbn [map block_start nth] in H0.
  destruct (Nat.ltb_spec i (nr d)), (Nat.ltb_spec j (nc d)); cbn [andb]; try lia;
  destruct (Nat.leb_spec (nr d) i), (Nat.leb_spec (nc d) j); cbn [andb]; try lia; auto.
  apply IH. intros k Hk Hc. apply (H (S k)); [simpl; lia|].
  cbn [map block_start nth]. lia.
Qed.

Lemma bdo_on ds : forall k i j, k < length ds ->
  i < nr (nth k ds (Mat 0 0 [])) -> j < nc (nth k ds (Mat 0 0 [])) ->
  bdo ds (block_start (map (fun d => nr d) ds) k + i) (block_start (map (fun d => nc d) ds) k + j)
  = Some (qent (nth k ds (Mat 0 0 [])) i j).
Proof.
  induction ds as [|d ds IH]; intros k i j Hk Hi Hj; [simpl in Hk; lia|].
  destruct k as [|k]; cbn [map block_start nth bdo] in *.
  - cbn [Nat.add]. destruct (Nat.ltb_spec i (nr d)); [|lia]. destruct (Nat.ltb_spec j (nc d)); [|lia]. reflexivity.
  - rewrite <- !Nat.add_assoc. destruct (Nat.ltb_spec (nr d + (block_start (map (fun d => nr d) ds) k + i)) (nr d)); [lia|].
    cbn [andb]. destruct (Nat.leb_spec (nr d) (nr d + (block_start (map (fun d => nr d) ds) k + i))); [|lia].
    destruct (Nat.leb_spec (nc d) (nc d + (block_start (map (fun d => nc d) ds) k + j))); [|lia]. cbn [andb].
    replace (nr d + _ - nr d) with (block_start (map (fun d => nr d) ds) k + i) by lia.
    replace (nc d + _ - nc d) with (block_start (map (fun d => nc d) ds) k + j) by lia.
    apply IH; auto. simpl in Hk. lia.
Qed.

(** [C15] Block diagonal assembly for any list of blocks of any shapes: entries,
    and the product with a concatenated vector (when there is at least one
    column; BLAS rejects an empty matrix, see C07). *)
Lemma block_diagonal_pf :
  forall (ds : list (matrix Qc)), (forall d, In d ds -> well_formed d) ->
  let blk k := nth k ds (Mat 0 0 []) in
  let r0 := block_start (map (fun d => nr d) ds) in
  let c0 := block_start (map (fun d => nc d) ds) in
  exists D, blockDiagonalMatrix ds = Ok D /\ well_formed D /\
    nr D = list_sum (map (fun d => nr d) ds) /\ nc D = list_sum (map (fun d => nc d) ds) /\
    (forall k i j, k < length ds -> i < nr (blk k) -> j < nc (blk k) ->
       entry D (r0 k + i) (c0 k + j) = entry (blk k) i j) /\
    (forall i j, i < nr D -> j < nc D ->
       (forall k, k < length ds ->
          ~ (r0 k <= i < r0 k + nr (blk k) /\ c0 k <= j < c0 k + nc (blk k))) ->
       entry D i j = Some 0%Qc) /\
    (forall xs ys, length xs = length ds -> length ys = length ds -> nc D <> 0 ->
       (forall k, k < length ds ->
          length (nth k xs []) = nc (blk k) /\ is_product_mv (blk k) (nth k xs []) (nth k ys [])) ->
       mulv D (concat xs) = Ok (concat ys)).
Proof.
  intros ds Hds blk r0 c0. rewrite blockDiagonalMatrix_ok by auto.
  eexists; split; [reflexivity|]. split; [apply mat_of_wf|]. split; [reflexivity|]. split; [reflexivity|].
  assert (Hin : forall k, k < length ds -> well_formed (blk k)).
  { intros k Hk. apply Hds. apply nth_In. auto. }
  assert (Hbs : forall (f : matrix Qc -> nat) k, k < length ds -> f (Mat 0 0 []) = 0 ->
     block_start (map f ds) k + f (blk k) <= list_sum (map f ds)).
  { intros f k Hk Hf. rewrite block_start_offs by (rewrite map_length; lia).
    pose proof (offs_le (map f ds) k ltac:(rewrite map_length; lia)) as H.
    rewrite <- Hf in H. rewrite map_nth in H. unfold blk. lia. }
  split; [|split].
  - intros k i j Hk Hi Hj. unfold r0, c0.
    pose proof (Hbs (fun d => nr d) k Hk eq_refl). pose proof (Hbs (fun d => nc d) k Hk eq_refl).
    cbv beta in *. rewrite entry_mat_of by (unfold rows_of, cols_of; lia).
    rewrite bdo_on by auto. symmetry. apply (entry_ent 0%Qc (blk k)); auto.
  - intros i j Hi Hj Hoff. cbn [nr nc mat_of] in *. rewrite entry_mat_of by auto.
    rewrite bdo_off by auto. reflexivity.
  - cbn [nr nc mat_of]. intros xs ys Hlx Hly Hne HP.
    assert (Hxc : map (@length Qc) xs = map (fun d => nc d) ds).
    { apply (list_ext 0); rewrite ?map_length; [auto|]. intros k Hk.
      rewrite (nth_indep _ 0 (length (@nil Qc))) by (rewrite map_length; auto). rewrite map_nth.
      rewrite (nth_indep _ 0 (nc (Mat 0 0 (@nil Qc)))) by (rewrite map_length; lia).
      rewrite (map_nth (fun d => nc d)). apply HP. lia. }
    assert (Hyr : map (@length Qc) ys = map (fun d => nr d) ds).
    { apply (list_ext 0); rewrite ?map_length; [auto|]. intros k Hk.
      rewrite (nth_indep _ 0 (length (@nil Qc))) by (rewrite map_length; auto). rewrite map_nth.
      rewrite (nth_indep _ 0 (nr (Mat 0 0 (@nil Qc)))) by (rewrite map_length; lia).
      rewrite (map_nth (fun d => nr d)). apply HP. lia. }
    assert (Hlen : forall ls : list (list Qc), length (concat ls) = list_sum (map (@length Qc) ls)).
    { induction ls as [|l ls IHl]; simpl; [reflexivity|]. rewrite app_length. lia. }
    rewrite mulv_ok; [|apply mat_of_wf|cbn [nc mat_of]; rewrite Hlen, Hxc; reflexivity|cbn [nc mat_of]; auto].
    f_equal. symmetry. cbn [nr nc mat_of]. apply (vec_is 0%Qc).
    + rewrite Hlen, Hyr. reflexivity.
    + intros i Hi.
      rewrite (sum_ext _ _ (fun j => match bdo ds i j with Some x => x | None => 0 end * vval (concat xs) j)%Qc)
        by (intros j Hj; rewrite mat_of_ent by auto; reflexivity).
      destruct (bdo_row ds Hds xs i Hxc Hi) as (k & Hk & H1 & H2 & E). rewrite E.
      destruct (HP k Hk) as (Hlk & Hylk & Hyk).
      assert (Hc : nth i (concat ys) 0%Qc = nth (i - r0 k) (nth k ys []) 0%Qc).
      { assert (Hg : forall (ls : list (list Qc)) k i, k < length ls ->
          i < length (nth k ls []) -> nth (block_start (map (@length Qc) ls) k + i) (concat ls) 0%Qc = nth i (nth k ls []) 0%Qc).
        { clear. induction ls as [|l ls IHl]; intros k i Hk Hi; [simpl in Hk; lia|].
          destruct k as [|k]; cbn [map block_start nth concat] in *.
          - cbn [Nat.add]. rewrite app_nth1 by auto. reflexivity.
          - rewrite <- Nat.add_assoc, app_nth2 by lia.
            replace (length l + _ - length l) with (block_start (map (@length Qc) ls) k + i) by lia.
            apply IHl; auto. simpl in Hk. lia. }
        rewrite <- Hg by (try lia; rewrite Hylk; unfold r0, blk; lia).
        rewrite Hyr. f_equal. unfold r0. lia. }
      rewrite Hc. fold (vval (nth k ys []) (i - r0 k)).
      rewrite Hyk by (unfold r0, blk; lia). apply sum_ext. intros j Hj. rewrite val_ent; auto.
      unfold r0, blk. lia.
Qed.

Lemma block_diagonal_example_expf :
  blockDiagonalMatrix [Mat 1 2 (map q [1; 2]%Z); Mat 2 1 (map q [3; 4]%Z)]
  = Ok (Mat 3 3 (map q [1; 2; 0; 0; 0; 3; 0; 0; 4]%Z)).
Proof. qcompute. Qed.
