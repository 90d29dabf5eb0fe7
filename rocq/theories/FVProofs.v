(** The assembled five-point system in closed form. *)
From Verif Require Import Base VectorModel MatrixModel LinSpec HPSModel HPSSpec FVModel FVSpec.
From Verif Require Import MatProofs MatProofs2 LinProofs HPSProofs HPSProofs3 HPSProofs4.

(** ** One row *)
Definition rowval (l : list (Z * Qc)) (J : nat) : Qc :=
  fold_right (fun e s => (delta (Z.to_nat (fst e)) J * snd e + s)%Qc) 0%Qc l.

Lemma MatInsert_ok l A row : well_formed A -> row < nr A ->
  (forall e, In e l -> (0 <= fst e < Z.of_nat (nc A))%Z) -> NoDup (map fst l) ->
  (forall e, In e l -> ent 0%Qc A row (Z.to_nat (fst e)) = 0%Qc) ->
  MatInsert A row l = Ok (mat_of (nr A) (nc A) (fun I J =>
    if I =? row then (ent 0 A row J + rowval l J)%Qc else ent 0%Qc A I J)).
Proof.
  revert A. induction l as [|e l IH]; intros A W Hr Hl ND Hz.
  - cbn [MatInsert foldM rowval fold_right]. unfold MatInsert. cbn [foldM]. f_equal.
    rewrite <- (mat_of_eta 0%Qc A W) at 1. apply mat_of_ext. intros i j Hi Hj.
    destruct (Nat.eqb_spec i row); [subst; ring|reflexivity].
  - unfold MatInsert. cbn [foldM]. destruct (Hl e) as (He0 & He1); [left; auto|].
    destruct (Z.ltb_spec (fst e) 0); [lia|].
    assert (Hc : Z.to_nat (fst e) < nc A) by lia.
    destruct (Nat.ltb_spec row (nr A)); [|lia]. destruct (Nat.ltb_spec (Z.to_nat (fst e)) (nc A)); [|lia].
    cbn [andb]. rewrite bind_Ok. fold (mupd A row (Z.to_nat (fst e)) (snd e)).
    inversion ND as [|? ? Hn ND']; subst.
    change (MatInsert (mupd A row (Z.to_nat (fst e)) (snd e)) row l = Ok (mat_of (nr A) (nc A) (fun I J =>
      if I =? row then (ent 0 A row J + rowval (e :: l) J)%Qc else ent 0%Qc A I J))).
    rewrite IH; auto using mupd_wf.
    + cbn [mupd nr nc]. f_equal. apply mat_of_ext. intros i j Hi Hj. rewrite !mupd_ent by auto.
      cbn [rowval fold_right]. fold (rowval l j).
      destruct (Nat.eqb_spec i row) as [->|Hne].
      * rewrite Nat.eqb_refl. cbn [andb]. unfold delta.
        destruct (Nat.eqb_spec (Z.to_nat (fst e)) j) as [<-|]; [rewrite Hz by (left; auto)|]; ring.
      * destruct (Nat.eqb_spec row i); [congruence|]. reflexivity.
    + intros e' He'. cbn [mupd nc]. apply Hl. right; auto.
    + intros e' He'. destruct (Hl e') as (Hl1 & Hl2); [right; auto|]. rewrite mupd_ent by (auto; lia).
      rewrite Nat.eqb_refl. cbn [andb]. destruct (Nat.eqb_spec (Z.to_nat (fst e)) (Z.to_nat (fst e'))) as [E|].
      * exfalso. apply Hn. apply in_map_iff. exists e'. split; auto. lia.
      * apply Hz. right; auto.
Qed.

(** ** Closed forms *)
Section Closed.
Context (c : coefs) (G : grid).
Notation nx := (gnx G).
Notation ny := (gny G).

Definition when (b : bool) (x : Qc) : Qc := if b then x else 0%Qc.

Definition fv_diag (i j : nat) : Qc :=
  let s := cell_stencil c G i j in
  (sC s - when (i =? 0) (sW s) - when (S i =? nx) (sE s) - when (j =? 0) (sS s) - when (S j =? ny) (sN s))%Qc.
Definition fv_row (i j J : nat) : Qc :=
  let s := cell_stencil c G i j in let I := j + i * ny in
  (fv_diag i j * delta I J
   + when (negb (i =? 0)) (sW s * delta (I - ny) J) + when (negb (S i =? nx)) (sE s * delta (I + ny) J)
   + when (negb (j =? 0)) (sS s * delta (I - 1) J) + when (negb (S j =? ny)) (sN s * delta (I + 1) J))%Qc.
Definition fv_bnd (gW gE gS gN : nat -> Qc) (i j : nat) : Qc :=
  let s := cell_stencil c G i j in
  (- two * (when (i =? 0) (sW s * gW j) + when (S i =? nx) (sE s * gE j)
            + when (j =? 0) (sS s * gS i) + when (S j =? ny) (sN s * gN i)))%Qc.
Definition fv_matrix : matrix Qc := mat_of (nx * ny) (nx * ny) (fun I J => fv_row (I / ny) (I mod ny) J).
Definition fv_rhs (gW gE gS gN f : nat -> Qc) : list Qc :=
  vec_of (nx * ny) (fun I => (f I + fv_bnd gW gE gS gN (I / ny) (I mod ny))%Qc).

Lemma idx_div i j : j < ny -> (j + i * ny) / ny = i.
Proof. intros H. rewrite Nat.div_add by lia. rewrite Nat.div_small by auto. reflexivity. Qed.
Lemma idx_mod i j : j < ny -> (j + i * ny) mod ny = j.
Proof. intros H. rewrite Nat.mod_add by lia. apply Nat.mod_small. auto. Qed.
Lemma idx_lt i j : i < nx -> j < ny -> j + i * ny < nx * ny.
Proof. intros. nia. Qed.

Section Sides.
Context (gW gE gS gN f : list Qc).
Context (Hx : 2 <= nx) (Hy : 2 <= ny).
Context (LW : length gW = ny) (LE : length gE = ny) (LS : length gS = nx) (LN : length gN = nx)
  (Lf : length f = nx * ny).

Definition partial_sys (done : nat -> bool) : matrix Qc * list Qc :=
  (mat_of (nx * ny) (nx * ny) (fun I J => when (done I) (fv_row (I / ny) (I mod ny) J)),
   vec_of (nx * ny) (fun I => when (done I)
     (vval f I + fv_bnd (vval gW) (vval gE) (vval gS) (vval gN) (I / ny) (I mod ny))%Qc)).

Lemma upd_vec_of {A} n (h : nat -> A) k a : k < n ->
  upd (vec_of n h) k a = vec_of n (fun i => if i =? k then a else h i).
Proof.
  intros H. apply (list_ext a).
  - rewrite upd_length, !vec_of_length. reflexivity.
  - rewrite upd_length, vec_of_length. intros i Hi. rewrite nth_upd by (rewrite vec_of_length; auto).
    rewrite !nth_vec_of by auto. rewrite (Nat.eqb_sym k i). reflexivity.
Qed.

Lemma VecInsert_ok n h k a : k < n ->
  VecInsert (vec_of n h) k a = Ok (vec_of n (fun i => if i =? k then a else h i)).
Proof.
  intros H. unfold VecInsert. rewrite vec_of_length. destruct (Nat.ltb_spec k n); [|lia].
  rewrite upd_vec_of by auto. reflexivity.
Qed.
Lemma VecAdd_ok n h k a : k < n ->
  VecAdd (vec_of n h) k a = Ok (vec_of n (fun i => if i =? k then (h k + a)%Qc else h i)).
Proof.
  intros H. unfold VecAdd. rewrite (nth_error_nth' _ 0%Qc) by (rewrite vec_of_length; auto).
  rewrite nth_vec_of by auto. rewrite upd_vec_of by auto. reflexivity.
Qed.

Lemma row_insert done i j l : i < nx -> j < ny -> done (j + i * ny) = false ->
  (forall e, In e l -> (0 <= fst e < Z.of_nat (nx * ny))%Z) -> NoDup (map fst l) ->
  (forall J, J < nx * ny -> rowval l J = fv_row i j J) ->
  MatInsert (fst (partial_sys done)) (j + i * ny) l =
  Ok (fst (partial_sys (fun I => done I || (I =? j + i * ny)))).
Proof.
  intros Hi Hj Hd Hl ND HR. pose proof (idx_lt i j Hi Hj) as HI. unfold partial_sys, fst.
  rewrite MatInsert_ok; [|apply mat_of_wf|exact HI|exact Hl|exact ND|].
  2:{ intros e He. destruct (Hl e He). rewrite mat_of_ent by (auto; lia). rewrite Hd. reflexivity. }
  cbn [mat_of nr nc]. f_equal. apply mat_of_ext. intros I J HI' HJ.
  destruct (Nat.eqb_spec I (j + i * ny)) as [->|Hne].
  - rewrite !mat_of_ent by auto. rewrite Hd, HR by auto. cbn [when orb]. rewrite idx_div, idx_mod by auto. ring.
  - rewrite !mat_of_ent by auto. rewrite orb_false_r. reflexivity.
Qed.

Ltac nodup := repeat (constructor; [cbn; intros HH; repeat (destruct HH as [HH|HH]; [nia|]); auto|]); constructor.
Ltac inrange := let e := fresh in let He := fresh in
  intros e He; cbn in He; repeat (destruct He as [<-|He]; [cbn [fst]; nia|]); contradiction.

Lemma fv_cell_ok done i j : i < nx -> j < ny -> done (j + i * ny) = false ->
  fv_cell c G gW gE gS gN f (partial_sys done) i j =
  Ok (partial_sys (fun I => done I || (I =? j + i * ny))).
Proof.
  intros Hi Hj Hd. pose proof (idx_lt i j Hi Hj) as HI. unfold fv_cell.
  set (s := cell_stencil c G i j).
  rewrite (vget_ok f _ 0%Qc) by lia. rewrite bind_Ok.
  change (snd (partial_sys done)) with (vec_of (nx * ny) (fun I => when (done I)
     (vval f I + fv_bnd (vval gW) (vval gE) (vval gS) (vval gN) (I / ny) (I mod ny))%Qc)).
  rewrite VecInsert_ok by auto. rewrite bind_Ok.
  set (ix := fun a b : Z => gridIndex (Z.of_nat i + a) (Z.of_nat j + b) (Z.of_nat ny)).
  fold (ix (-1)%Z 0%Z) (ix 1%Z 0%Z) (ix 0%Z (-1)%Z) (ix 0%Z 1%Z) (ix 0%Z 0%Z).
  assert (iC : ix 0%Z 0%Z = Z.of_nat (j + i * ny)) by (unfold ix, gridIndex; lia).
  assert (iE : ix 1%Z 0%Z = Z.of_nat (j + i * ny + ny)) by (unfold ix, gridIndex; nia).
  assert (iN : ix 0%Z 1%Z = Z.of_nat (j + i * ny + 1)) by (unfold ix, gridIndex; lia).
  assert (iW : i <> 0 -> ix (-1)%Z 0%Z = Z.of_nat (j + i * ny - ny)) by (unfold ix, gridIndex; nia).
  assert (iS : j <> 0 -> ix 0%Z (-1)%Z = Z.of_nat (j + i * ny - 1)) by (unfold ix, gridIndex; nia).
  assert (RHS : forall F2, F2 = vec_of (nx * ny) (fun I => if I =? j + i * ny
      then (vval f (j + i * ny) + fv_bnd (vval gW) (vval gE) (vval gS) (vval gN) i j)%Qc
      else when (done I) (vval f I + fv_bnd (vval gW) (vval gE) (vval gS) (vval gN) (I / ny) (I mod ny))%Qc) ->
     F2 = snd (partial_sys (fun I => done I || (I =? j + i * ny)))).
  { intros F2 ->. apply vec_of_ext. intros I HI'. destruct (Nat.eqb_spec I (j + i * ny)) as [->|].
    - rewrite orb_true_r, idx_div, idx_mod by auto. reflexivity.
    - rewrite orb_false_r. reflexivity. }
  assert (FIN : forall row add,
     (forall e, In e row -> (0 <= fst e < Z.of_nat (nx * ny))%Z) -> NoDup (map fst row) ->
     (forall J, J < nx * ny -> rowval row J = fv_row i j J) ->
     (- two * add = fv_bnd (vval gW) (vval gE) (vval gS) (vval gN) i j)%Qc ->
     (F2 <- VecAdd (vec_of (nx * ny) (fun I => if I =? j + i * ny then nth (j + i * ny) f 0%Qc else
              when (done I) (vval f I + fv_bnd (vval gW) (vval gE) (vval gS) (vval gN) (I / ny) (I mod ny))%Qc))
            (j + i * ny) (- two * add)%Qc ;;
      A2 <- MatInsert (fst (partial_sys done)) (j + i * ny) row ;; Ok (A2, F2)) =
     Ok (partial_sys (fun I => done I || (I =? j + i * ny)))).
  { intros row add H1 H2 H3 H4. rewrite VecAdd_ok, bind_Ok by auto.
    rewrite (row_insert done i j row Hi Hj Hd H1 H2 H3), bind_Ok.
    rewrite (surjective_pairing (partial_sys (fun I => done I || (I =? j + i * ny)))). do 2 f_equal.
    apply RHS. apply vec_of_ext. intros I HI'. rewrite H4. destruct (I =? j + i * ny); rewrite ?Nat.eqb_refl; reflexivity. }
  assert (DX : (Z.of_nat i =? Z.of_nat nx - 1)%Z = (S i =? nx)).
  { destruct (Z.eqb_spec (Z.of_nat i) (Z.of_nat nx - 1)), (Nat.eqb_spec (S i) nx); auto; lia. }
  assert (DY : (Z.of_nat j =? Z.of_nat ny - 1)%Z = (S j =? ny)).
  { destruct (Z.eqb_spec (Z.of_nat j) (Z.of_nat ny - 1)), (Nat.eqb_spec (S j) ny); auto; lia. }
  rewrite DX, DY, iC, iE, iN. clear DX DY.
  assert (X : forall (row : list (Z * Qc)) J, rowval row J =
     fold_right (fun e s => (delta (Z.to_nat (fst e)) J * snd e + s)%Qc) 0%Qc row) by reflexivity.
  destruct (Nat.eqb_spec i 0) as [i0|i0], (Nat.eqb_spec j 0) as [j0|j0],
    (Nat.eqb_spec (S i) nx) as [in_|in_], (Nat.eqb_spec (S j) ny) as [jn|jn]; try (exfalso; lia);
    cbn [andb]; try rewrite (iW i0); try rewrite (iS j0);
    try (rewrite (vget_ok gW _ 0%Qc), bind_Ok by lia); try (rewrite (vget_ok gE _ 0%Qc), bind_Ok by lia);
    try (rewrite (vget_ok gS _ 0%Qc), bind_Ok by lia); try (rewrite (vget_ok gN _ 0%Qc), bind_Ok by lia);
    try (apply FIN;
      [inrange|nodup
      |intros J HJ; rewrite X; unfold fv_row, fv_diag; fold s; cbn [fold_right fst snd]; rewrite !Nat2Z.id
      |unfold fv_bnd; fold s; unfold vval];
      repeat match goal with |- context [?a =? ?b] => destruct (Nat.eqb_spec a b); [try (exfalso; lia)|try (exfalso; lia)] end;
      cbn [when negb]; ring).
  (* interior *)
  rewrite (row_insert done i j _ Hi Hj Hd), bind_Ok; [|inrange|nodup|].
  - rewrite (surjective_pairing (partial_sys (fun I => done I || (I =? j + i * ny)))). do 2 f_equal.
    apply RHS. apply vec_of_ext. intros I HI'. destruct (I =? j + i * ny); [|reflexivity].
    unfold fv_bnd. destruct (Nat.eqb_spec i 0); [lia|]. destruct (Nat.eqb_spec j 0); [lia|].
    destruct (Nat.eqb_spec (S i) nx); [lia|]. destruct (Nat.eqb_spec (S j) ny); [lia|]. cbn [when]. unfold vval. ring.
  - intros J HJ; rewrite X; unfold fv_row, fv_diag; fold s; cbn [fold_right fst snd]; rewrite !Nat2Z.id.
    destruct (Nat.eqb_spec i 0); [lia|]. destruct (Nat.eqb_spec j 0); [lia|].
    destruct (Nat.eqb_spec (S i) nx); [lia|]. destruct (Nat.eqb_spec (S j) ny); [lia|]. cbn [when negb]. ring.
Qed.

Lemma fv_loop_row k j done : k <= nx -> j < ny -> (forall i, done (j + i * ny) = false) ->
  foldM (fun st i => fv_cell c G gW gE gS gN f st i j) (seq 0 k) (partial_sys done) =
  Ok (partial_sys (fun I => done I || ((I mod ny =? j) && (I / ny <? k)))).
Proof.
  intros Hk Hj Hd. induction k as [|k IH].
  - cbn [seq foldM]. f_equal. unfold partial_sys. f_equal.
    + apply mat_of_ext. intros I J _ _. rewrite andb_false_r, orb_false_r. reflexivity.
    + apply vec_of_ext. intros I _. rewrite andb_false_r, orb_false_r. reflexivity.
  - rewrite seq_S, foldM_app, IH by lia. rewrite bind_Ok. cbn [foldM Nat.add].
    rewrite fv_cell_ok; [|lia|lia|].
    2:{ rewrite Hd, idx_div, idx_mod by auto. rewrite Nat.eqb_refl, Nat.ltb_irrefl. reflexivity. }
    rewrite bind_Ok. f_equal.
    assert (Q : forall I, I < nx * ny -> done I || (I mod ny =? j) && (I / ny <? k) || (I =? j + k * ny) =
                 done I || (I mod ny =? j) && (I / ny <? S k)).
    { intros I HI. rewrite <- orb_assoc. f_equal.
      destruct (divmod_lt nx ny I HI) as (_ & _ & EI).
      destruct (Nat.eqb_spec (I mod ny) j) as [E|E]; cbn [andb].
      - destruct (Nat.ltb_spec (I / ny) k), (Nat.ltb_spec (I / ny) (S k)), (Nat.eqb_spec I (j + k * ny)); auto; try nia.
      - destruct (Nat.eqb_spec I (j + k * ny)) as [->|]; [|reflexivity]. rewrite idx_mod in E by auto. congruence. }
    unfold partial_sys. f_equal.
    + apply mat_of_ext. intros I J HI _. rewrite Q by auto. reflexivity.
    + apply vec_of_ext. intros I HI. rewrite Q by auto. reflexivity.
Qed.

Lemma fv_loops k : k <= ny ->
  foldM (fun st j => foldM (fun st i => fv_cell c G gW gE gS gN f st i j) (seq 0 nx) st) (seq 0 k)
    (partial_sys (fun _ => false)) =
  Ok (partial_sys (fun I => I mod ny <? k)).
Proof.
  intros Hk. induction k as [|k IH].
  - reflexivity.
  - rewrite seq_S, foldM_app, IH by lia. rewrite bind_Ok. cbn [foldM Nat.add].
    rewrite fv_loop_row; [|lia|lia|].
    2:{ intros i. rewrite idx_mod by lia. apply Nat.ltb_irrefl. }
    rewrite bind_Ok. f_equal.
    assert (Q : forall I, I < nx * ny -> (I mod ny <? k) || (I mod ny =? k) && (I / ny <? nx) = (I mod ny <? S k)).
    { intros I HI. destruct (divmod_lt nx ny I HI) as (H1 & H2 & EI).
      destruct (Nat.ltb_spec (I / ny) nx); [|lia]. rewrite andb_true_r.
      destruct (Nat.ltb_spec (I mod ny) k), (Nat.ltb_spec (I mod ny) (S k)), (Nat.eqb_spec (I mod ny) k); auto; lia. }
    unfold partial_sys. f_equal.
    + apply mat_of_ext. intros I J HI _. rewrite Q by auto. reflexivity.
    + apply vec_of_ext. intros I HI. rewrite Q by auto. reflexivity.
Qed.

Lemma fv_assembled :
  foldM (fun st j => foldM (fun st i => fv_cell c G gW gE gS gN f st i j) (seq 0 nx) st) (seq 0 ny)
    (mconst (nx * ny) (nx * ny) 0%Qc, repeat 0%Qc (nx * ny)) =
  Ok (fv_matrix, fv_rhs (vval gW) (vval gE) (vval gS) (vval gN) (vval f)).
Proof.
  replace (mconst (nx * ny) (nx * ny) 0%Qc, repeat 0%Qc (nx * ny)) with (partial_sys (fun _ => false)).
  - rewrite fv_loops by lia. f_equal. unfold partial_sys, fv_matrix, fv_rhs. f_equal.
    + apply mat_of_ext. intros I J HI _. destruct (divmod_lt nx ny I HI) as (_ & H2 & _).
      destruct (Nat.ltb_spec (I mod ny) ny); [reflexivity|lia].
    + apply vec_of_ext. intros I HI. destruct (divmod_lt nx ny I HI) as (_ & H2 & _).
      destruct (Nat.ltb_spec (I mod ny) ny); [reflexivity|lia].
  - unfold partial_sys. f_equal.
    + rewrite mconst_is. reflexivity.
    + symmetry. apply (vec_is 0%Qc); [apply repeat_length|]. intros i Hi. rewrite nth_repeat. reflexivity.
Qed.
End Sides.

(** The row applied to a vector. *)
Lemma sum_delta_when n k b (x : Qc) (z : nat -> Qc) : (b = true -> k < n) ->
  (sum n (fun J => when b (x * delta k J) * z J) = when b (x * z k))%Qc.
Proof.
  intros H. destruct b; cbn [when].
  - rewrite (sum_ext _ _ (fun J => x * (delta k J * z J))%Qc) by (intros; ring).
    rewrite sum_scal_l, sum_delta_l by auto. reflexivity.
  - apply sum_zero. intros. ring.
Qed.

Lemma fv_row_sum i j z : i < nx -> j < ny ->
  let s := cell_stencil c G i j in let I := j + i * ny in
  (sum (nx * ny) (fun J => fv_row i j J * z J) =
   fv_diag i j * z I + when (negb (i =? 0)) (sW s * z (I - ny)%nat) + when (negb (S i =? nx)) (sE s * z (I + ny)%nat)
   + when (negb (j =? 0)) (sS s * z (I - 1)%nat) + when (negb (S j =? ny)) (sN s * z (I + 1)%nat))%Qc.
Proof.
  intros Hi Hj s I. pose proof (idx_lt i j Hi Hj) as HI. fold I in HI.
  unfold fv_row. fold s I.
  rewrite (sum_ext _ _ (fun J => fv_diag i j * (delta I J * z J)
     + when (negb (i =? 0)) (sW s * delta (I - ny) J) * z J + when (negb (S i =? nx)) (sE s * delta (I + ny) J) * z J
     + when (negb (j =? 0)) (sS s * delta (I - 1) J) * z J + when (negb (S j =? ny)) (sN s * delta (I + 1) J) * z J)%Qc)
    by (intros; ring).
  rewrite !sum_plus, sum_scal_l, sum_delta_l by auto.
  rewrite !sum_delta_when; [reflexivity|..]; intros Hb; apply negb_true_iff in Hb; apply Nat.eqb_neq in Hb; subst I; nia.
Qed.

Lemma fv_matrix_sum i j z : i < nx -> j < ny ->
  (sum (nx * ny) (fun J => val fv_matrix (j + i * ny) J * z J) = sum (nx * ny) (fun J => fv_row i j J * z J))%Qc.
Proof.
  intros Hi Hj. pose proof (idx_lt i j Hi Hj) as HI. apply sum_ext. intros J HJ. unfold fv_matrix.
  rewrite val_mat_of by auto. rewrite idx_div, idx_mod by auto. reflexivity.
Qed.

(** Geometry. *)
Lemma two_is : two = (1 + 1)%Qc.
Proof. apply Qc_is_canon. reflexivity. Qed.
Lemma two_nz : (1 + 1 <> 0)%Qc.
Proof. intros H. apply (f_equal this) in H. discriminate H. Qed.

Ltac tnz := first [exact two_nz | let HH := fresh in intros HH; apply (f_equal this) in HH; discriminate HH].
Ltac geom := unfold gx, gy, mid_x, mid_y, face_x, face_y; change (gdx G) with (width_x G); change (gdy G) with (width_y G);
  generalize (width_x G); generalize (width_y G); intros; fold two; rewrite ?two_is, ?Qc_of_nat_S; field; tnz.
Lemma gx_mid i : gx G i = mid_x G i.
Proof. geom. Qed.
Lemma gy_mid j : gy G j = mid_y G j.
Proof. geom. Qed.
Lemma gx_right i : (gx G i + gdx G / two = face_x G (S i))%Qc.
Proof. geom. Qed.
Lemma gx_left i : (gx G i - gdx G / two = face_x G i)%Qc.
Proof. geom. Qed.
Lemma gy_up j : (gy G j + gdy G / two = face_y G (S j))%Qc.
Proof. geom. Qed.
Lemma gy_down j : (gy G j - gdy G / two = face_y G j)%Qc.
Proof. geom. Qed.

Lemma proper_widths : proper G -> width_x G <> 0%Qc /\ width_y G <> 0%Qc.
Proof.
  intros (Hx & Hy & Nx & Ny). unfold width_x, width_y, Qcdiv.
  assert (Q : forall a b n, a <> b -> n <> 0 -> ((b - a) * / Qc_of_nat n)%Qc <> 0%Qc).
  { intros a b n Hab Hn E. apply Qcmult_integral in E as [E|E].
    - apply Hab. symmetry. replace b with ((b - a) + a)%Qc by ring. rewrite E. ring.
    - pose proof (Qcmult_inv_r (Qc_of_nat n) (Qc_of_nat_nz n Hn)) as K. rewrite E, Qcmult_0_r in K.
      apply (f_equal this) in K. discriminate K. }
  split; apply Q; auto.
Qed.

(** The residual of the assembled system is the residual of the discrete equation. *)
Lemma half_eq a b x : ((a + b) / (1 + 1) = x)%Qc -> a = (x + x - b)%Qc.
Proof. intros <-. field. tnz. Qed.

Lemma fv_residual g u E (gW gE gS gN f : nat -> Qc) i j :
  proper G -> ghosts G g u E ->
  (forall j, j < ny -> gW j = west G g j /\ gE j = east G g j) ->
  (forall i, i < nx -> gS i = south G g i /\ gN i = north G g i) ->
  i < nx -> j < ny ->
  (sum (nx * ny) (fun J => val fv_matrix (j + i * ny) J * vval u J) - vval (fv_rhs gW gE gS gN f) (j + i * ny)
   = elliptic c G E i j - f (j + i * ny)%nat)%Qc.
Proof.
  intros HP (HE & HWE & HSN) KWE KSN Hi Hj. destruct (proper_widths HP) as (Wx & Wy).
  rewrite fv_matrix_sum, fv_row_sum by auto. unfold fv_rhs.
  rewrite vval_vec_of by (apply idx_lt; auto). rewrite idx_div, idx_mod by auto.
  unfold fv_diag, fv_bnd, elliptic. cbv zeta.
  destruct (KWE j Hj) as (EW & EE), (KSN i Hi) as (ES & EN). rewrite EW, EE, ES, EN. clear EW EE ES EN.
  destruct (HWE j Hj) as (HW & HEa), (HSN i Hi) as (HS & HN).
  apply half_eq in HW, HEa, HS, HN.
  pose proof (HE i j Hi Hj) as E0. unfold cell in E0. rewrite E0.
  (* neighbours *)
  assert (NE : E (Z.of_nat i + 1)%Z (Z.of_nat j) = if S i =? nx then (east G g j + east G g j - vval u (j + i * ny))%Qc else vval u (j + i * ny + ny)).
  { destruct (Nat.eqb_spec (S i) nx) as [Hn|Hn].
    - replace (Z.of_nat i + 1)%Z with (Z.of_nat nx) by lia. rewrite HEa.
      replace (Z.of_nat nx - 1)%Z with (Z.of_nat i) by lia. rewrite E0. reflexivity.
    - replace (Z.of_nat i + 1)%Z with (Z.of_nat (S i)) by lia. rewrite HE by lia. unfold cell. f_equal. lia. }
  assert (NW : E (Z.of_nat i - 1)%Z (Z.of_nat j) = if i =? 0 then (west G g j + west G g j - vval u (j + i * ny))%Qc else vval u (j + i * ny - ny)).
  { destruct (Nat.eqb_spec i 0) as [->|Hn].
    - cbn [Z.of_nat Z.sub Z.add Z.opp]. rewrite HW. cbn [Z.of_nat] in E0. rewrite E0. reflexivity.
    - replace (Z.of_nat i - 1)%Z with (Z.of_nat (i - 1)) by lia. rewrite HE by lia. unfold cell. f_equal. nia. }
  assert (NN : E (Z.of_nat i) (Z.of_nat j + 1)%Z = if S j =? ny then (north G g i + north G g i - vval u (j + i * ny))%Qc else vval u (j + i * ny + 1)).
  { destruct (Nat.eqb_spec (S j) ny) as [Hn|Hn].
    - replace (Z.of_nat j + 1)%Z with (Z.of_nat ny) by lia. rewrite HN.
      replace (Z.of_nat ny - 1)%Z with (Z.of_nat j) by lia. rewrite E0. reflexivity.
    - replace (Z.of_nat j + 1)%Z with (Z.of_nat (S j)) by lia. rewrite HE by lia. unfold cell. f_equal. lia. }
  assert (NS : E (Z.of_nat i) (Z.of_nat j - 1)%Z = if j =? 0 then (south G g i + south G g i - vval u (j + i * ny))%Qc else vval u (j + i * ny - 1)).
  { destruct (Nat.eqb_spec j 0) as [->|Hn].
    - cbn [Z.of_nat Z.sub Z.add Z.opp]. rewrite HS. cbn [Z.of_nat] in E0. rewrite E0. reflexivity.
    - replace (Z.of_nat j - 1)%Z with (Z.of_nat (j - 1)) by lia. rewrite HE by lia. unfold cell. f_equal. nia. }
  rewrite NE, NW, NN, NS. clear NE NW NN NS HE HWE HSN KWE KSN HW HEa HS HN E0.
  unfold cell_stencil. cbv zeta. cbn [sW sE sS sN sC]. rewrite gx_right, gx_left, gy_up, gy_down, gx_mid, gy_mid, two_is.
  change (gdx G) with (width_x G). change (gdy G) with (width_y G).
  destruct (i =? 0), (S i =? nx), (j =? 0), (S j =? ny); cbn [when negb]; field; auto.
Qed.

(** Ghost cells exist. *)
Definition ghost_of (g u : list Qc) (I J : Z) : Qc :=
  let i := Z.to_nat I in let j := Z.to_nat J in
  if (I <? 0)%Z then (west G g j + west G g j - cell G u 0 j)%Qc
  else if (Z.of_nat nx <=? I)%Z then (east G g j + east G g j - cell G u (nx - 1) j)%Qc
  else if (J <? 0)%Z then (south G g i + south G g i - cell G u i 0)%Qc
  else if (Z.of_nat ny <=? J)%Z then (north G g i + north G g i - cell G u i (ny - 1))%Qc
  else cell G u i j.
Lemma ghost_of_ok g u : nx <> 0 -> ny <> 0 -> ghosts G g u (ghost_of g u).
Proof.
  intros Nx Ny. unfold ghosts, ghost_of. cbv zeta. split; [|split].
  - intros i j Hi Hj. rewrite !Nat2Z.id.
    destruct (Z.ltb_spec (Z.of_nat i) 0); [lia|]. destruct (Z.leb_spec (Z.of_nat nx) (Z.of_nat i)); [lia|].
    destruct (Z.ltb_spec (Z.of_nat j) 0); [lia|]. destruct (Z.leb_spec (Z.of_nat ny) (Z.of_nat j)); [lia|]. reflexivity.
  - intros j Hj. rewrite !Nat2Z.id.
    destruct (Z.ltb_spec (Z.of_nat j) 0); [lia|]. destruct (Z.leb_spec (Z.of_nat ny) (Z.of_nat j)); [lia|].
    cbn [Z.ltb Z.compare]. destruct (Z.leb_spec (Z.of_nat nx) 0); [lia|]. change (Z.to_nat 0) with 0.
    destruct (Z.ltb_spec (Z.of_nat nx) 0); [lia|]. destruct (Z.leb_spec (Z.of_nat nx) (Z.of_nat nx)); [|lia].
    destruct (Z.ltb_spec (Z.of_nat nx - 1) 0); [lia|]. destruct (Z.leb_spec (Z.of_nat nx) (Z.of_nat nx - 1)); [lia|].
    replace (Z.to_nat (Z.of_nat nx - 1)) with (nx - 1) by lia. split; field; tnz.
  - intros i Hi. rewrite !Nat2Z.id.
    destruct (Z.ltb_spec (Z.of_nat i) 0); [lia|]. destruct (Z.leb_spec (Z.of_nat nx) (Z.of_nat i)); [lia|].
    cbn [Z.ltb Z.compare]. destruct (Z.leb_spec (Z.of_nat ny) 0); [lia|]. change (Z.to_nat 0) with 0.
    destruct (Z.ltb_spec (Z.of_nat ny) 0); [lia|]. destruct (Z.leb_spec (Z.of_nat ny) (Z.of_nat ny)); [|lia].
    destruct (Z.ltb_spec (Z.of_nat ny - 1) 0); [lia|]. destruct (Z.leb_spec (Z.of_nat ny) (Z.of_nat ny - 1)); [lia|].
    replace (Z.to_nat (Z.of_nat ny - 1)) with (ny - 1) by lia. split; field; tnz.
Qed.

(** Solutions of the linear system and of the discrete problem are the same. *)
Lemma fv_solution_iff g f u (gW gE gS gN : nat -> Qc) :
  proper G -> length u = nx * ny ->
  (forall j, j < ny -> gW j = west G g j /\ gE j = east G g j) ->
  (forall i, i < nx -> gS i = south G g i /\ gN i = north G g i) ->
  (fv_solution c G g f u <->
   forall I, I < nx * ny -> sum (nx * ny) (fun J => val fv_matrix I J * vval u J)%Qc = vval (fv_rhs gW gE gS gN (vval f)) I).
Proof.
  intros HP Lu KWE KSN. pose proof HP as (_ & _ & Nx & Ny).
  assert (Z0 : forall a b : Qc, (a - b = 0 -> a = b)%Qc) by (intros a b H; replace a with ((a - b) + b)%Qc by ring; rewrite H; ring).
  split.
  - intros (_ & H) I HI. destruct (divmod_lt nx ny I HI) as (Hi & Hj & EI).
    rewrite EI, Nat.add_comm. apply Z0.
    rewrite (fv_residual g u (ghost_of g u) gW gE gS gN (vval f) _ _ HP (ghost_of_ok g u Nx Ny) KWE KSN Hi Hj).
    rewrite (H _ (ghost_of_ok g u Nx Ny) _ _ Hi Hj). unfold cell. ring.
  - intros H. split; [exact Lu|]. intros E HE i j Hi Hj. apply Z0. unfold cell.
    rewrite <- (fv_residual g u E gW gE gS gN (vval f) _ _ HP HE KWE KSN Hi Hj).
    rewrite H by (apply idx_lt; auto). ring.
Qed.

Lemma fv_matrix_square : square (nx * ny) fv_matrix.
Proof. split; [apply mat_of_wf|split; reflexivity]. Qed.

Lemma fv_unique_iff : proper G -> (fv_unique c G <-> nonsingular fv_matrix).
Proof.
  intros HP. destruct fv_matrix_square as (W & R & C).
  assert (ZB : forall I, I < nx * ny -> vval (fv_rhs (fun _ => 0%Qc) (fun _ => 0%Qc) (fun _ => 0%Qc) (fun _ => 0%Qc) (vval (zeros (nx * ny)))) I = 0%Qc).
  { intros I HI. unfold fv_rhs. rewrite vval_vec_of, vval_zeros by auto. unfold fv_bnd.
    destruct (I / ny =? 0), (S (I / ny) =? nx), (I mod ny =? 0), (S (I mod ny) =? ny); cbn [when]; ring. }
  assert (Q : forall u, length u = nx * ny -> (fv_solution c G (zeros (2 * ny + 2 * nx)) (zeros (nx * ny)) u <->
     forall I, I < nx * ny -> sum (nx * ny) (fun J => val fv_matrix I J * vval u J)%Qc = 0%Qc)).
  { intros u Lu. rewrite (fv_solution_iff _ _ u (fun _ => 0%Qc) (fun _ => 0%Qc) (fun _ => 0%Qc) (fun _ => 0%Qc) HP Lu).
    - split; intros H I HI; [rewrite H by auto; apply ZB; auto|rewrite ZB by auto; apply H; auto].
    - intros j _. unfold west, east. rewrite !vval_zeros. auto.
    - intros i _. unfold south, north. rewrite !vval_zeros. auto. }
  split.
  - intros HU. split; [exact W|]. split; [congruence|]. rewrite R. intros z Hz j Hj.
    assert (E : vec_of (nx * ny) z = zeros (nx * ny)).
    { apply HU. apply Q; [apply vec_of_length|]. intros I HI. rewrite <- (Hz I HI).
      apply sum_ext. intros J HJ. rewrite vval_vec_of by auto. reflexivity. }
    rewrite <- (vval_vec_of (nx * ny) z j Hj), E. apply vval_zeros.
  - intros (_ & _ & H) u HS. pose proof HS as (Lu & _). apply zeros_eq; [exact Lu|].
    rewrite R in H. apply H. apply Q; auto.
Qed.
End Closed.
