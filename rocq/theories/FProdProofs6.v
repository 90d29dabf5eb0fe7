(** Products of matrices, scalar products and sums of vectors in double arithmetic. *)
From Coq Require Import Reals Lra Permutation.
From Flocq Require Import Core Binary Bits.
From Verif Require Import Base VectorModel MatrixModel LinSpec MatProofs MatProofs2 MatProofs3 HPSModel FloatModel FloatSpec
  FloatProofs FloatProofs2 FProdModel FProdSpec FProdProofs FProdProofs2 FProdProofs3 FProdProofs4 FProdProofs5.

Local Open Scope R_scope.
Local Notation val := FloatSpec.val.

Lemma mulm_dims M N P : well_formed M -> well_formed N -> mulm M N = Ok P ->
  nc M = nr N /\ nr M <> 0%nat /\ nc M <> 0%nat /\ nc N <> 0%nat.
Proof.
  intros WM WN E. unfold mulm in E. destruct (Nat.eqb_spec (nc M) (nr N)) as [L|]; cbn [negb] in E; [|discriminate].
  split; [exact L|]. unfold dgemm in E.
  destruct (Nat.ltb_spec (nc M) (Nat.max 1 (nc M))); [discriminate E|].
  destruct (Nat.ltb_spec (nc N) (Nat.max 1 (nc N))); [discriminate E|].
  destruct (Nat.ltb_spec (nr M) (Nat.max 1 (nr M))); [discriminate E|]. lia.
Qed.

Lemma column_same D M j : same_matrix D M -> well_formed M -> (j < nc M)%nat -> same_vector (col_of D j) (qcolumn M j).
Proof.
  intros (E1 & E2 & F) W Hj. unfold col_of, qcolumn, same_vector. rewrite E1, E2.
  assert (H : forall l, (forall i, In i l -> (i < nr M)%nat) ->
     Forall2 is_double (map (fun i => nth (i * nc M + j) (dat D) (dint 0)) l) (map (fun i => nth (i * nc M + j) (dat M) 0%Qc) l)).
  { induction l as [|i l IH]; intros Hl; [constructor|]. cbn [map]. constructor; [|apply IH; intros k Hk; apply Hl; right; exact Hk].
    apply same_nth; [exact F|]. unfold well_formed in W. rewrite W. pose proof (Hl i (or_introl eq_refl)). nia. }
  apply H. intros i Hi. apply in_seq in Hi. lia.
Qed.

Lemma concat_nth {A} (C : list (list A)) m d : (forall r, In r C -> length r = m) -> forall i j, (j < m)%nat ->
  nth (i * m + j) (concat C) d = nth j (nth i C []) d.
Proof.
  induction C as [|r C IH]; intros H i j Hj; [destruct (i * m + j)%nat, i, j; reflexivity|].
  pose proof (H r (or_introl eq_refl)) as Lr. cbn [concat]. destruct i as [|i]; cbn [Nat.mul Nat.add nth].
  - rewrite app_nth1 by lia. reflexivity.
  - rewrite app_nth2 by lia. rewrite Lr. replace (m + i * m + j - m)%nat with (i * m + j)%nat by lia. apply IH; [|exact Hj].
    intros q Hq. apply H. right. exact Hq.
Qed.

Lemma mulm_rows A B r : well_formed A -> well_formed B -> nc A = nr B -> nr A <> 0%nat -> nc A <> 0%nat -> nc B <> 0%nat ->
  dmulm_outcome A B r ->
  exists C, r = Ok C /\ nr C = nr A /\ nc C = nc B /\ well_formed C /\
    forall i j, (i < nr A)%nat -> (j < nc B)%nat -> sum_value (combine (row_of A i) (col_of B j)) (nth (i * nc B + j) (dat C) (dint 0)).
Proof.
  intros WA WB E H1 H2 H3 O. unfold dmulm_outcome in O.
  destruct (Nat.eqb_spec (nc A) (nr B)); [|lia]. cbn [negb] in O.
  destruct (Nat.eqb_spec (nr A) 0); [lia|]. destruct (Nat.eqb_spec (nc A) 0); [lia|]. destruct (Nat.eqb_spec (nc B) 0); [lia|].
  cbn [orb] in O. rewrite (drows_ok A WA), (dcols_ok B WB) in O. destruct O as (C & -> & F).
  eexists. split; [reflexivity|]. cbn [nr nc dat]. split; [reflexivity|]. split; [reflexivity|].
  pose proof (F2_length _ _ _ F) as LC. rewrite map_length, seq_length in LC.
  assert (LR : forall q, In q C -> length q = nc B).
  { intros q Hq. destruct (In_nth _ _ [] Hq) as (i & Hi & <-).
    destruct (Forall2_nth _ _ _ [] [] F) as (_ & K). specialize (K i). rewrite map_length, seq_length in K. specialize (K ltac:(lia)).
    apply F2_length in K. rewrite map_length, seq_length in K. symmetry. exact K. }
  split.
  - unfold well_formed. cbn [nr nc dat]. rewrite LC. clear - LR. induction C as [|q C IH]; [reflexivity|]. cbn [concat length].
    rewrite app_length, IH, (LR q (or_introl eq_refl)) by (intros p Hp; apply LR; right; exact Hp). lia.
  - intros i j Hi Hj. rewrite (concat_nth C (nc B)) by assumption.
    destruct (Forall2_nth _ _ _ [] [] F) as (_ & K). specialize (K i). rewrite map_length, seq_length in K. specialize (K Hi).
    destruct (Forall2_nth _ _ _ [] (dint 0) K) as (_ & K'). specialize (K' j). rewrite map_length, seq_length in K'. specialize (K' Hj).
    rewrite (nth_indep _ [] (row_of A 0)), map_nth, seq_nth in K' by (rewrite ?map_length, ?seq_length; lia).
    rewrite (nth_indep _ [] (col_of B 0)), map_nth, seq_nth in K' by (rewrite ?map_length, ?seq_length; lia). exact K'.
Qed.

Lemma matrix_product_error DM M DN N P r : well_formed M -> well_formed N -> same_matrix DM M -> same_matrix DN N ->
  mulm M N = Ok P -> dmulm_outcome DM DN r ->
  exists C, r = Ok C /\ nr C = nr P /\ nc C = nc P /\ length (dat C) = length (dat P) /\
    forall i j, (i < nr P)%nat -> (j < nc P)%nat ->
      finite (nth (i * nc P + j) (dat C) (dint 0)) ->
       Rabs (val (nth (i * nc P + j) (dat C) (dint 0)) - qval (nth (i * nc P + j) (dat P) 0%Qc)) <=
       rounding (nonzeros (qproducts M (qcolumn N j) i)) (sizes (qproducts M (qcolumn N j) i)).
Proof.
  intros WM WN SM SN E O. destruct (mulm_dims _ _ _ WM WN E) as (L & H1 & H2 & H3).
  pose proof SM as (M1 & M2 & M3). pose proof SN as (N1 & N2 & N3).
  destruct (mulm_rows DM DN r (same_wf _ _ SM WM) (same_wf _ _ SN WN) ltac:(lia) ltac:(lia) ltac:(lia) ltac:(lia) O)
    as (C & -> & R & CC & WC & H).
  rewrite (mulm_ok M N WM WN L H1 H2 H3) in E. apply Ok_inj in E. subst P. exists C. split; [reflexivity|].
  cbn [nr nc mat_of]. split; [lia|]. split; [lia|]. split.
  { rewrite WC. symmetry. etransitivity; [apply mat_of_wf|]. cbn [nr nc mat_of]. lia. }
  intros i j Hi Hj F. specialize (H i j ltac:(lia) ltac:(lia)). rewrite N2 in H.
  assert (LQ : length (qcolumn N j) = nc M) by (unfold qcolumn; rewrite map_length, seq_length; lia).
  destruct (row_exact DM M (col_of DN j) (qcolumn N j) i WM SM (column_same DN N j SN WN Hj) LQ Hi) as (_ & PE).
  pose proof (sum_error _ _ H F) as B. unfold exact_sum in B. rewrite size_map, terms_map, PE in B.
  match goal with |- Rabs (_ - ?q) <= _ => replace q with (Rsum (qproducts M (qcolumn N j) i)); [exact B|] end.
  change (nth (i * nc N + j) (dat (mat_of (nr M) (nc N) (fun i0 j0 : nat => sum (nc M) (fun k : nat => (qent M i0 k * qent N k j0)%Qc)))) 0%Qc)
    with (qent (mat_of (nr M) (nc N) (fun i0 j0 : nat => sum (nc M) (fun k : nat => (qent M i0 k * qent N k j0)%Qc))) i j).
  rewrite mat_of_ent by assumption. rewrite sum_qval. unfold qproducts. f_equal. apply map_ext_in. intros k Hk. apply in_seq in Hk.
  rewrite qval_mult. f_equal. f_equal. unfold qcolumn.
  assert (G : forall (f : nat -> Qc) n k0, (k0 < n)%nat -> f k0 = nth k0 (map f (seq 0 n)) 0%Qc).
  { intros f n k0 Hk0. rewrite (nth_indep _ 0%Qc (f 0%nat)) by (rewrite map_length, seq_length; lia).
    rewrite map_nth, seq_nth by lia. reflexivity. }
  first [exact (G (fun i0 => nth (i0 * nc N + j) (dat N) 0%Qc) (nr N) k ltac:(lia))|symmetry; exact (G (fun i0 => nth (i0 * nc N + j) (dat N) 0%Qc) (nr N) k ltac:(lia))].
Qed.

(** The scalar product is one of the sums. *)
Lemma loop_foldM (v w : list double) : length w = length v -> forall k s, (k <= length v)%nat ->
  foldM (fun s i => a <- vget w i ;; b <- vdata v i ;; Ok (dadd s (dmul a b))) (seq k (length v - k)) s =
  Ok (fold_left (fun s p => dadd s (dmul (fst p) (snd p))) (skipn k (combine w v)) s).
Proof.
  intros L k s Hk. remember (length v - k)%nat as n. revert k s Hk Heqn. induction n as [|n IH]; intros k s Hk Hn.
  - cbn [seq foldM]. rewrite skipn_all2 by (rewrite combine_length; lia). reflexivity.
  - cbn [seq foldM]. rewrite (vget_ok w k (dint 0)) by lia. rewrite bind_Ok. rewrite (vdata_ok v k (dint 0)) by lia. rewrite !bind_Ok.
    rewrite IH by lia. f_equal.
    assert (E : skipn k (combine w v) = (nth k w (dint 0), nth k v (dint 0)) :: skipn (S k) (combine w v)).
    { rewrite <- combine_nth by exact L. set (c := combine w v). assert (K : (k < length c)%nat) by (unfold c; rewrite combine_length; lia).
      clearbody c. clear - K. revert k K. induction c as [|a c IH]; intros k K; [cbn in K; lia|]. destruct k as [|k]; [reflexivity|].
      cbn [skipn nth]. apply IH. cbn in K. lia. }
    rewrite E. reflexivity.
Qed.
Lemma dot_sum v w r : dvdot v w = Ok r -> sum_value (combine w v) r.
Proof.
  unfold dvdot. destruct (Nat.eqb_spec (length w) (length v)) as [L|]; cbn [negb]; [|discriminate]. intros E.
  pose proof (loop_foldM v w L 0 (dint 0) ltac:(lia)) as K. rewrite Nat.sub_0_r in K. rewrite K in E. cbn [skipn] in E.
  apply Ok_inj in E. subst r. apply (loop_sum (combine w v) [] (dint 0) sum_none).
Qed.

(** The data on the interior edges. *)
Lemma dvadd_nth v w u : dvadd v w = Ok u -> length w = length v /\ length u = length v /\
  forall i, (i < length v)%nat -> nth i u (dint 0) = dadd (nth i v (dint 0)) (nth i w (dint 0)).
Proof.
  unfold dvadd. destruct (Nat.eqb_spec (length w) (length v)) as [L|]; cbn [negb]; [|discriminate]. intros E.
  rewrite (mapM_ok _ (fun i => dadd (nth i v (dint 0)) (nth i w (dint 0)))) in E.
  - apply Ok_inj in E. subst u. split; [exact L|]. split; [rewrite map_length, seq_length; reflexivity|]. intros i Hi.
    assert (G : forall (f : nat -> double) n k0, (k0 < n)%nat -> nth k0 (map f (seq 0 n)) (dint 0) = f k0).
    { intros f n k0 Hk0. rewrite (nth_indep _ (dint 0) (f 0%nat)) by (rewrite map_length, seq_length; lia).
      rewrite map_nth, seq_nth by lia. reflexivity. }
    apply (G (fun i => dadd (nth i v (dint 0)) (nth i w (dint 0)))). exact Hi.
  - intros i Hi. apply in_seq in Hi. rewrite (vdata_ok v i (dint 0)) by lia. rewrite bind_Ok, (vget_ok w i (dint 0)) by lia. reflexivity.
Qed.

Lemma add_error n A x p e w : Rabs (val x - p) <= rounding n A -> Rabs p <= A -> val w = e -> finite (dadd x w) ->
  Rabs (val (dadd x w) - (p + e)) <= rounding (S n) (A + Rabs e).
Proof.
  intros H HA <- F. destruct (add_val x w F) as (Fx & Fw & V). rewrite V.
  pose proof (rnd_error_sum (val x) (val w) (repr_val x) (repr_val w)) as R.
  assert (T : Rabs (val x + val w) <= rounding n A + A + Rabs (val w)).
  { replace (val x + val w) with ((val x - p) + p + val w) by ring. eapply Rle_trans; [apply Rabs_triang|].
    apply Rplus_le_compat_r. eapply Rle_trans; [apply Rabs_triang|]. lra. }
  pose proof uu_pos as U. pose proof (Rabs_pos p). pose proof (Rabs_pos (val w)) as Pw.
  apply Rle_trans with (uu * (rounding n A + A + Rabs (val w)) + rounding n A).
  - replace (rnd (val x + val w) - (p + val w)) with ((rnd (val x + val w) - (val x + val w)) + (val x - p)) by ring.
    eapply Rle_trans; [apply Rabs_triang|]. apply Rplus_le_compat; [|exact H]. eapply Rle_trans; [exact R|]. apply Rmult_le_compat_l; lra.
  - pose proof (rounding_step n (S n) A ltac:(lia) ltac:(lra)) as K. rewrite (rounding_pw (S n)).
    assert (K1 : uu * Rabs (val w) <= (pw (S n) - 1) * Rabs (val w)).
    { apply Rmult_le_compat_r; [exact Pw|]. rewrite pw_S. pose proof (pw_1 n). nra. }
    assert (K2 : INR n * pw (S n) * eta <= INR (S n) * pw (S n) * eta).
    { apply Rmult_le_compat_r; [pose proof eta_pos; lra|]. apply Rmult_le_compat_r; [pose proof (pw_1 (S n)); lra|]. apply le_INR; lia. }
    lra.
Qed.

Lemma sizes_bound l : Rabs (Rsum l) <= sizes l.
Proof.
  unfold sizes, Rsum. induction l as [|a l IH]; cbn; [rewrite Rabs_R0; lra|]. eapply Rle_trans; [apply Rabs_triang|]. lra.
Qed.

Lemma interior_error DS S g gq w wq u vq : well_formed S -> same_matrix DS S -> same_vector g gq -> same_vector w wq ->
  (p <- mulv S gq ;; vadd p wq) = Ok vq -> dinterior_data DS g w u ->
  length u = length vq /\ forall i, (i < length vq)%nat -> finite (nth i u (dint 0)) ->
    Rabs (val (nth i u (dint 0)) - qval (nth i vq 0%Qc)) <=
    rounding (1 + nonzeros (qproducts S gq i)) (sizes (qproducts S gq i) + Rabs (qval (nth i wq 0%Qc))).
Proof.
  intros WS SS Sg Sw E (p & O & A). apply bind_inv in E as (pq & EP & EA).
  destruct (product_error DS S g gq pq (Ok p) WS SS Sg EP O) as (y & Ey & Ly & H). apply Ok_inj in Ey. subst y.
  destruct (dvadd_nth _ _ _ A) as (L1 & L2 & N).
  destruct (Nat.eqb_spec (length wq) (length pq)) as [LW|LW];
    [|unfold vadd in EA; apply Nat.eqb_neq in LW; rewrite LW in EA; discriminate EA].
  rewrite (vadd_ok pq wq LW) in EA. apply Ok_inj in EA. subst vq. rewrite vec_of_length.
  split; [lia|]. intros i Hi F. rewrite nth_vec_of by exact Hi. rewrite qval_plus.
  rewrite (N i ltac:(lia)) in F |- *. destruct (add_val _ _ F) as (Fp & _). destruct (H i Hi) as (_ & B). specialize (B Fp).
  apply (add_error _ _ _ (qval (nth i pq 0%Qc))); [exact B| |apply (same_nth w wq i Sw ltac:(lia))|exact F].
  rewrite (mulv_row S gq pq i WS EP) by (destruct (mulv_dims _ _ _ WS EP) as (_ & _ & Q); lia). apply sizes_bound.
Qed.
