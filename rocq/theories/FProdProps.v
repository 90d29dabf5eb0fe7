(** Products and changes of resolution in double arithmetic. *)
From Coq Require Import Reals Lra Permutation.
From Flocq Require Import Core Binary Bits.
From Verif Require Import Base VectorModel MatrixModel LinSpec HPSModel FloatModel FloatSpec FProdModel FProdSpec.
From Verif Require Import FloatProofs FloatProofs2 MatProofs MatProofs3 FProdProofs FProdProofs2 FProdProofs3 FProdProofs4 FProdProofs5 FProdProofs6 FProdProofs7 FProdProofs8 FProdProofs9.

Local Open Scope R_scope.

(** [C82] However a sum of products is ordered and fused: if the result is finite, its
    error is at most that of [n] roundings, [n] the number of nonzero products. *)
Lemma double_sum_error_pf : forall l r, sum_value l r -> finite r ->
  Rabs (FloatSpec.val r - exact_sum l) <= rounding (terms l) (size_sum l).
Proof. exact sum_error. Qed.

(** [C82] A sum of finite products whose sizes stay below 2^1023 with the roundings is
    finite in every order. *)
Lemma double_sum_finite_pf : forall l r, sum_value l r -> numbers l ->
  size_sum l + rounding (terms l) (size_sum l) <= bpow radix2 1023 -> finite r.
Proof. intros l r S N H. apply (sum_finite l r S N). rewrite <- rounding_total. exact H. Qed.

(** [C82] A sum of products that are multiples of 2^E, with sizes adding up to less than
    2^(E+53), is exact in every order. *)
Lemma double_sum_exact_pf : forall E l r, sum_value l r -> numbers l ->
  Forall (fun p => exists k, product p = IZR k * bpow radix2 E) l -> size_sum l < bpow radix2 (53 + E) -> (-1074 <= E <= 971)%Z ->
  finite r /\ FloatSpec.val r = exact_sum l.
Proof. exact sum_exact_multiples. Qed.

(** [C82] An infinity or a NaN among the factors shows in the result, unless it is
    multiplied by zero. *)
Lemma double_sum_shows_nonfinite_pf : forall l r, sum_value l r -> finite r ->
  Forall (fun p => (finite (fst p) /\ finite (snd p)) \/ zero_double (fst p) || zero_double (snd p) = true) l.
Proof. exact sum_finite_factors. Qed.

(** [C82] Matrix times vector: the outcome has the length of the exact product, and every
    finite entry differs from the exact one by at most the roundings of its row. *)
Lemma double_product_error_pf : forall D M x xq yq r, well_formed M -> same_matrix D M -> same_vector x xq ->
  mulv M xq = Ok yq -> dmulv_outcome D x r ->
  exists y, r = Ok y /\ length y = length yq /\
    forall i, (i < length yq)%nat -> finite (nth i y (dint 0)) ->
      Rabs (FloatSpec.val (nth i y (dint 0)) - qval (nth i yq 0%Qc)) <=
      rounding (nonzeros (qproducts M xq i)) (sizes (qproducts M xq i)).
Proof.
  intros D M x xq yq r W S Sx E O. destruct (product_error D M x xq yq r W S Sx E O) as (y & -> & L & H).
  exists y. split; [reflexivity|]. split; [exact L|]. intros i Hi F. destruct (H i Hi) as (_ & B). exact (B F).
Qed.

(** [C82] Matrix times matrix, entry by entry. *)
Lemma double_matrix_product_error_pf : forall DM M DN N P r, well_formed M -> well_formed N -> same_matrix DM M -> same_matrix DN N ->
  mulm M N = Ok P -> dmulm_outcome DM DN r ->
  exists C, r = Ok C /\ nr C = nr P /\ nc C = nc P /\ length (dat C) = length (dat P) /\
    forall i j, (i < nr P)%nat -> (j < nc P)%nat ->
      finite (nth (i * nc P + j) (dat C) (dint 0)) ->
       Rabs (FloatSpec.val (nth (i * nc P + j) (dat C) (dint 0)) - qval (nth (i * nc P + j) (dat P) 0%Qc)) <=
       rounding (nonzeros (qproducts M (qcolumn N j) i)) (sizes (qproducts M (qcolumn N j) i)).
Proof. exact matrix_product_error. Qed.

(** [C82] The scalar product of two vectors. *)
Lemma double_dot_error_pf : forall v w r, dvdot v w = Ok r -> finite r ->
  length w = length v /\
  Rabs (FloatSpec.val r - exact_sum (combine w v)) <= rounding (terms (combine w v)) (size_sum (combine w v)).
Proof.
  intros v w r E F. split; [|apply sum_error; [apply dot_sum, E|exact F]].
  unfold dvdot in E. destruct (Nat.eqb_spec (length w) (length v)) as [L|]; [exact L|discriminate E].
Qed.

(** [C82] The values on the interior edges, S g + w. *)
Lemma double_interior_error_pf : forall DS S g gq w wq u vq, well_formed S -> same_matrix DS S -> same_vector g gq -> same_vector w wq ->
  (p <- mulv S gq ;; vadd p wq) = Ok vq -> dinterior_data DS g w u ->
  length u = length vq /\ forall i, (i < length vq)%nat -> finite (nth i u (dint 0)) ->
    Rabs (FloatSpec.val (nth i u (dint 0)) - qval (nth i vq 0%Qc)) <=
    rounding (1 + nonzeros (qproducts S gq i)) (sizes (qproducts S gq i) + Rabs (qval (nth i wq 0%Qc))).
Proof. exact interior_error. Qed.

(** Every well-formed matrix and vector have an outcome. *)
Lemma double_product_exists_expf : forall D x, well_formed D -> exists r, dmulv_outcome D x r.
Proof. exact mulv_outcome_exists. Qed.

(** The order matters: 2^53 - 2^53 + 1. *)
Definition big : double := dint (2 ^ 53).
Definition three_pairs : list (double * double) := [(big, dint 1); (dint (-1), big); (dint 1, dint 1)].
Lemma order_matters_expf : exists r s, sum_value three_pairs r /\ sum_value three_pairs s /\ finite r /\ finite s /\ r <> s.
Proof.
  exists (dadd (dadd (dmul big (dint 1)) (dmul (dint (-1)) big)) (dmul (dint 1) (dint 1))).
  exists (dadd (dadd (dmul big (dint 1)) (dmul (dint 1) (dint 1))) (dmul (dint (-1)) big)).
  split; [|split; [|split; [vm_compute; reflexivity|split; [vm_compute; reflexivity|]]]].
  - apply (sum_add [(big, dint 1); (dint (-1), big)] [(dint 1, dint 1)]); [|apply sum_mul|reflexivity].
    apply (sum_add [(big, dint 1)] [(dint (-1), big)]); [apply sum_mul|apply sum_mul|reflexivity].
  - apply (sum_add [(big, dint 1); (dint 1, dint 1)] [(dint (-1), big)]); [|apply sum_mul|apply perm_skip, perm_swap].
    apply (sum_add [(big, dint 1)] [(dint 1, dint 1)]); [apply sum_mul|apply sum_mul|reflexivity].
  - intros E. apply (f_equal (B2FF 53 1024)) in E. vm_compute in E. discriminate E.
Qed.

(** [C83] One pass to the finer resolution: every entry is finite and its error does not
    grow with the number of cells. *)
Lemma double_refine_error_pf : forall c g gq yq r B, (3 <= c)%nat -> same_vector g gq -> length gq = (4 * c)%nat ->
  bounded B g -> B <= bpow radix2 1020 ->
  (L <- Coarse2Fine (2 * c) ;; M <- four_diag L ;; mulv M gq) = Ok yq -> drefine (2 * c) g r ->
  exists y, r = Ok y /\ length y = (8 * c)%nat /\
    forall i, (i < 8 * c)%nat -> finite (nth i y (dint 0)) /\
      Rabs (FloatSpec.val (nth i y (dint 0)) - qval (nth i yq 0%Qc)) <= bpow radix2 (-50) * B + bpow radix2 (-1073).
Proof. exact refine_error. Qed.

(** [C83] One pass is exact for data of at most 46 binary digits. *)
Lemma double_refine_exact_pf : forall c g gq yq r E, (3 <= c)%nat -> same_vector g gq -> length gq = (4 * c)%nat ->
  Forall (few_digits E) g -> (-1069 <= E <= 976)%Z ->
  (L <- Coarse2Fine (2 * c) ;; M <- four_diag L ;; mulv M gq) = Ok yq -> drefine (2 * c) g r ->
  exists y, r = Ok y /\ length y = (8 * c)%nat /\
    forall i, (i < 8 * c)%nat -> is_double (nth i y (dint 0)) (nth i yq 0%Qc).
Proof. exact refine_exact. Qed.

(** [C83] All passes of uncoarsen_ together, against the exact passes on the patch. *)
Lemma double_passes_error_pf : forall n0 tau tau' g g' B, (3 <= n0)%nat -> gnx (pgrid tau) = (2 ^ pnc tau * n0)%nat ->
  same_vector g (pg tau) -> length g = (4 * n0)%nat -> bounded B g -> 3 ^ pnc tau * (B + bpow radix2 (-1000)) <= bpow radix2 1020 ->
  uncoarsen tau = Ok tau' -> duncoarsen (gnx (pgrid tau)) (pnc tau) 0 g g' ->
  length g' = (4 * gnx (pgrid tau))%nat /\ Forall finite g' /\ length (pg tau') = length g' /\
  forall i, (i < length g')%nat -> Rabs (FloatSpec.val (nth i g' (dint 0)) - qval (nth i (pg tau') 0%Qc)) <=
    INR (pnc tau) * 3 ^ pnc tau * (bpow radix2 (-50) * (B + bpow radix2 (-1000))).
Proof. exact uncoarsen_near. Qed.

(** [C83] Between the ends of the sides one pass keeps every constant whose quarter is a
    double. *)
Lemma double_constant_inside_pf : forall c g r v, (3 <= c)%nat -> length g = (4 * c)%nat -> constant v g ->
  (exists q, finite q /\ FloatSpec.val q = v / 4) -> drefine (2 * c) g r ->
  exists y, r = Ok y /\ length y = (8 * c)%nat /\
    forall i, (i < 8 * c)%nat -> (i mod (2 * c))%nat <> 0%nat -> (i mod (2 * c))%nat <> (2 * c - 1)%nat ->
      finite (nth i y (dint 0)) /\ FloatSpec.val (nth i y (dint 0)) = v.
Proof. exact refine_inner_constant. Qed.

(** [C83] All passes of uncoarsen_ together keep a constant of at most 46 binary digits. *)
Lemma double_constant_kept_partial_pf : forall n0 ncoarse E m g g', (3 <= n0)%nat -> (Z.abs m <= 2 ^ 46)%Z -> (-1069 <= E <= 976)%Z ->
  duncoarsen (2 ^ ncoarse * n0) ncoarse 0 g g' -> length g = (4 * n0)%nat -> constant (IZR m * bpow radix2 E) g ->
  length g' = (4 * (2 ^ ncoarse * n0))%nat /\ constant (IZR m * bpow radix2 E) g'.
Proof.
  intros n0 ncoarse E m g g' H0 Hm HE U L C. apply (uncoarsen_constant n0 ncoarse E m H0 Hm HE 0 g g' ltac:(lia) U); [|exact C].
  rewrite L. cbn [Nat.pow]. lia.
Qed.

(** [C83] Other constants are not kept: 0.3 changes at the ends of the sides. *)
Lemma double_constant_kept_refuted_pf : exists v g y, constant v g /\ length g = 12%nat /\ drefine 6 g (Ok y) /\ ~ constant v y.
Proof.
  destruct three_changes as (y & O & F & N). exists (FloatSpec.val point_three), three_data, y.
  assert (C : forall n, constant (FloatSpec.val point_three) (repeat point_three n)).
  { induction n as [|n IH]; cbn [repeat]; constructor; [split; [exact three_finite|reflexivity]|exact IH]. }
  split; [apply C|]. split; [reflexivity|]. split; [exact O|]. intros K. apply N.
  destruct y as [|a y].
  - exfalso. destruct (refine_out 3 three_data (Ok []) ltac:(lia) O) as (D & M & SD & (W & R & CC & _) & _ & OM).
    pose proof SD as (S1 & S2 & _). destruct (mulv_rows D three_data (Ok []) (same_wf _ _ SD W) ltac:(rewrite S2, CC; reflexivity) ltac:(rewrite S2, CC; lia) OM) as (z & Ez & Lz & _).
    apply Ok_inj in Ez. subst z. rewrite S1, R in Lz. discriminate Lz.
  - inversion K as [|? ? (_ & V) _]; subst. exact V.
Qed.

(** [C83] One pass to the coarser resolution: the error does not grow with the number of
    cells. *)
Lemma double_average_error_pf : forall c h hq yq r B, (0 < c)%nat -> same_vector h hq -> length hq = (8 * c)%nat ->
  bounded B h -> B <= bpow radix2 1020 ->
  (L <- Fine2Coarse c ;; M <- four_diag L ;; mulv M hq) = Ok yq -> daverage (2 * c) h r ->
  exists y, r = Ok y /\ length y = (4 * c)%nat /\
    forall i, (i < 4 * c)%nat -> finite (nth i y (dint 0)) /\
      Rabs (FloatSpec.val (nth i y (dint 0)) - qval (nth i yq 0%Qc)) <= bpow radix2 (-51) * B + bpow radix2 (-1073).
Proof. exact average_error. Qed.

(** [C83] Averaging keeps every constant whose half is a double. *)
Lemma double_average_constant_pf : forall c h r v, (0 < c)%nat -> length h = (8 * c)%nat -> constant v h ->
  (exists d, finite d /\ FloatSpec.val d = v / 2) -> daverage (2 * c) h r ->
  exists y, r = Ok y /\ length y = (4 * c)%nat /\ constant v y.
Proof. exact average_constant. Qed.

(** A case with two passes: three cells per side, constant 1, twelve cells in the end. *)
Lemma uncoarsen_exists_expf : exists g g', length g = 12%nat /\ constant (IZR 1 * bpow radix2 0) g /\ duncoarsen 12 2 0 g g'.
Proof.
  assert (C : forall n, constant (IZR 1 * bpow radix2 0) (repeat (dint 1) n)).
  { induction n as [|n IH]; cbn [repeat]; constructor; [|exact IH]. split; [reflexivity|].
    rewrite (proj2 (dint_ok 1 eq_refl)). cbn. lra. }
  assert (X : forall c g, (3 <= c)%nat -> length g = (4 * c)%nat -> Forall finite g -> exists y, drefine (2 * c) g (Ok y)).
  { intros c g Hc Lg Fg. destruct (refine_matrix c Hc) as (L & M & EL & EM & (W & R & CC & _)).
    pose proof (coarse2fine_same (2 * c)) as S. rewrite EL in S. destruct (relres_ok _ _ _ S) as (DL & ED & SL).
    pose proof (four_same DL L SL) as S4. rewrite EM in S4. destruct (relres_ok _ _ _ S4) as (D & E4 & SD).
    pose proof (same_wf _ _ SD W) as WD. destruct (mulv_outcome_exists D g WD) as (r & O). pose proof SD as (S1 & S2 & _).
    destruct (mulv_rows D g r WD ltac:(lia) ltac:(lia) O) as (y & -> & _). exists y. unfold drefine. rewrite ED, bind_Ok, E4. exact O. }
  assert (K : forall v g, constant v g -> Forall finite g).
  { intros v g H. eapply Forall_impl; [|exact H]. intros a (A & _). exact A. }
  destruct (X 3%nat (repeat (dint 1) 12) ltac:(lia) ltac:(rewrite repeat_length; reflexivity) (K _ _ (C 12%nat))) as (y & O).
  destruct (refine_constant 3 _ _ 0 1 ltac:(lia) ltac:(rewrite repeat_length; reflexivity) (C 12%nat) ltac:(lia) ltac:(lia) O) as (z & Ez & Lz & Cz).
  apply Ok_inj in Ez. subst z.
  destruct (X 6%nat y ltac:(lia) ltac:(rewrite Lz; reflexivity) (K _ _ Cz)) as (z & O2).
  exists (repeat (dint 1) 12), z. split; [apply repeat_length|]. split; [apply C|].
  eapply unc_pass; [lia|exact O|]. eapply unc_pass; [lia|exact O2|]. apply unc_done.
Qed.

(** The exact passes of the same case. *)
Definition ex_refined : patch :=
  let m := mconst 0 0 0%Qc in Patch (Grid 12 12 0%Qc 1%Qc 0%Qc 1%Qc) m m m m [] (repeat 1%Qc 12) [] [] [] 2.
Lemma exact_passes_exist_expf : exists tau', uncoarsen ex_refined = Ok tau' /\ gnx (pgrid ex_refined) = (2 ^ pnc ex_refined * 3)%nat /\
  length (pg ex_refined) = 12%nat.
Proof.
  assert (X : forall c g, (3 <= c)%nat -> length g = (4 * c)%nat -> exists L M y, Coarse2Fine (2 * c) = Ok L /\ four_diag L = Ok M /\ mulv M g = Ok y /\ length y = (8 * c)%nat).
  { intros c g Hc Lg. destruct (refine_matrix c Hc) as (L & M & EL & EM & (W & R & CC & _)). exists L, M.
    rewrite (mulv_ok M g W) by lia. eexists. split; [exact EL|]. split; [exact EM|]. split; [reflexivity|]. rewrite vec_of_length. exact R. }
  destruct (X 3%nat (pg ex_refined) ltac:(lia) ltac:(reflexivity)) as (L & M & y & EL & EM & EY & Ly).
  destruct (X 6%nat y ltac:(lia) ltac:(lia)) as (L2 & M2 & z & EL2 & EM2 & EZ & Lz).
  exists (set_g (set_g ex_refined y) z). split; [|split; reflexivity].
  unfold uncoarsen. change (pnc ex_refined) with 2%nat. cbn [seq foldM].
  change (gnx (pgrid ex_refined)) with 12%nat. change (pnc ex_refined) with 2%nat. cbv zeta. change (12 / 2 ^ (2 - (0 + 1)))%nat with (2 * 3)%nat.
  rewrite EL, bind_Ok, EM, bind_Ok, EY, !bind_Ok.
  change (gnx (pgrid (set_g ex_refined y))) with 12%nat. change (pnc (set_g ex_refined y)) with 2%nat.
  change (pg (set_g ex_refined y)) with y. change (12 / 2 ^ (2 - (1 + 1)))%nat with (2 * 6)%nat.
  rewrite EL2, bind_Ok, EM2, bind_Ok, EZ, !bind_Ok. reflexivity.
Qed.
