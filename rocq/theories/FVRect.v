(** The patch solver on patches with different numbers of cells in x and y; fluxes
    on the two sides of a face; the FISHPACK branch with other coefficients. *)
From Verif Require Import Base VectorModel MatrixModel LinSpec HPSModel HPSSpec FVModel FVSpec.
From Verif Require Import MatProofs MatProofs2 LinProofs HPSProofs HPSProofs3 HPSProofs4 Gauss FVProofs FVProofs2 FVProofs3 FVMax FVJoin FVFish.

Ltac tnz := first [exact two_nz | let HH := fresh in intros HH; apply (f_equal this) in HH; discriminate HH].

(** ** Rectangular patches *)
Lemma sides_take nx (g : list Qc) : 4 * nx <= length g ->
  sides nx g = Ok (Four (vec_of nx (fun i => vval g (0 * nx + i))) (vec_of nx (fun i => vval g (1 * nx + i)))
                        (vec_of nx (fun i => vval g (2 * nx + i))) (vec_of nx (fun i => vval g (3 * nx + i)))).
Proof.
  intros L. unfold sides.
  rewrite (getSegment_ok 0%Qc) by lia. rewrite bind_Ok.
  rewrite (getSegment_ok 0%Qc) by lia. rewrite bind_Ok.
  rewrite (getSegment_ok 0%Qc) by lia. rewrite bind_Ok.
  rewrite (getSegment_ok 0%Qc) by lia. rewrite bind_Ok. reflexivity.
Qed.
Lemma sides_short nx (g : list Qc) : 2 * nx <= length g -> length g < 4 * nx -> sides nx g = Throw out_of_range.
Proof.
  intros L1 L2. unfold sides.
  rewrite (getSegment_ok 0%Qc) by lia. rewrite bind_Ok.
  rewrite (getSegment_ok 0%Qc) by lia. rewrite bind_Ok.
  destruct (Nat.lt_ge_cases (length g) (3 * nx)).
  - unfold getSegment. destruct (Nat.ltb_spec (length g) (2 * nx + nx)); [reflexivity|lia].
  - rewrite (getSegment_ok 0%Qc) by lia. rewrite bind_Ok.
    unfold getSegment. destruct (Nat.ltb_spec (length g) (3 * nx + nx)); [reflexivity|lia].
Qed.

Lemma foldM_ext_in {A B} (f g : A -> B -> res A) l : (forall x, In x l -> forall a, f a x = g a x) -> forall a, foldM f l a = foldM g l a.
Proof.
  induction l as [|x l IH]; intros H a; [reflexivity|]. cbn [foldM]. rewrite H by (left; reflexivity).
  destruct (g a x); cbn [bind]; auto. apply IH. intros y Hy. apply H. right. exact Hy.
Qed.

Lemma cell_ext c G gW gE gS gN gW' gE' f st i j :
  vget gW j = vget gW' j -> vget gE j = vget gE' j ->
  fv_cell c G gW gE gS gN f st i j = fv_cell c G gW' gE' gS gN f st i j.
Proof. intros A B. unfold fv_cell. rewrite A, B. reflexivity. Qed.

Lemma rectangular lu c G g f :
  2 <= gnx G -> 2 <= gny G -> gnx G <> gny G -> length g = 2 * gny G + 2 * gnx G -> length f = gnx G * gny G ->
  fv_solve lu c G g f = (if gny G <? gnx G then Throw out_of_range else UB).
Proof.
  intros Hx Hy Ne Lg Lf. unfold fv_solve, fv_system.
  set (nx := gnx G) in *. set (ny := gny G) in *.
  destruct (Nat.lt_ge_cases ny nx) as [Lt|Ge].
  - rewrite sides_short by lia. destruct (Nat.ltb_spec ny nx); [reflexivity|lia].
  - assert (Lt : nx < ny) by lia. rewrite sides_take by lia. rewrite bind_Ok. cbv zeta. cbn [fa fb fc fd].
    set (gW := vec_of nx _). set (gE := vec_of nx _). set (gS := vec_of nx _). set (gN := vec_of nx _).
    set (gW' := vec_of ny (fun i => vval g (0 * nx + i))). set (gE' := vec_of ny (fun i => vval g (1 * nx + i))).
    assert (HE : forall st, foldM (fun st j => foldM (fun st i => fv_cell c G gW gE gS gN f st i j) (seq 0 nx) st) (seq 0 nx) st
      = foldM (fun st j => foldM (fun st i => fv_cell c G gW' gE' gS gN f st i j) (seq 0 nx) st) (seq 0 nx) st).
    { intros st. apply foldM_ext_in. intros j Hj st'. apply in_seq in Hj. apply foldM_ext_in. intros i Hi st2. apply cell_ext.
      - unfold gW, gW'. rewrite !vget_vec_of by lia. reflexivity.
      - unfold gE, gE'. rewrite !vget_vec_of by lia. reflexivity. }
    replace (seq 0 ny) with (seq 0 nx ++ nx :: seq (S nx) (ny - S nx)).
    2:{ change (nx :: seq (S nx) (ny - S nx)) with (seq nx (S (ny - S nx))). rewrite <- (Nat.add_0_l nx) at 2. rewrite <- seq_app. f_equal. lia. }
    rewrite foldM_app, HE.
    replace (mconst (nx * ny) (nx * ny) 0%Qc, repeat 0%Qc (nx * ny)) with (partial_sys c G gW' gE' gS gN f (fun _ => false)).
    2:{ unfold partial_sys. fold nx ny. f_equal.
        - rewrite mconst_is. reflexivity.
        - symmetry. apply (vec_is 0%Qc); [apply repeat_length|]. intros i Hi. rewrite nth_repeat. reflexivity. }
    rewrite (fv_loops c G gW' gE' gS gN f Hx Hy); [|apply vec_of_length..|exact Lf|exact Ge].
    rewrite bind_Ok. cbn [foldM].
    assert (C : foldM (fun st i => fv_cell c G gW gE gS gN f st i nx) (seq 0 nx)
       (partial_sys c G gW' gE' gS gN f (fun I => I mod gny G <? nx)) = UB).
    { assert (B0 : nx + 0 * gny G < gnx G * gny G) by (change (gnx G) with nx; change (gny G) with ny; nia).
      destruct nx as [|nx'] eqn:En; [lia|]. cbn [seq foldM]. rewrite <- En in *. unfold fv_cell at 1. cbv zeta.
      rewrite (vget_ok f _ 0%Qc) by (rewrite Lf; fold ny; nia). rewrite bind_Ok.
      unfold partial_sys, snd. unfold VecInsert at 1. rewrite vec_of_length. rewrite (proj2 (Nat.ltb_lt _ _) B0). rewrite bind_Ok.
      assert (W : vget gW nx = UB).
      { unfold vget. assert (LW : length gW = nx) by (rewrite En; apply vec_of_length).
        rewrite LW, Nat.ltb_irrefl. rewrite (proj2 (nth_error_None _ _)) by lia. reflexivity. }
      destruct (Nat.eqb_spec nx 0); [lia|]. cbn [Nat.eqb andb].
      destruct (Z.eqb_spec (Z.of_nat 0) (Z.of_nat (gnx G) - 1)); [lia|]. cbn [andb].
      destruct (Z.eqb_spec (Z.of_nat nx) (Z.of_nat (gny G) - 1)); rewrite W; reflexivity. }
    rewrite C. destruct (Nat.ltb_spec ny nx); [lia|reflexivity].
Qed.

(** ** Fluxes on the two sides of a face *)
Lemma half_flux (z a b w : Qc) : w <> 0%Qc ->
  (((z - a) / (w / (1 + 1)) = (b - z) / (w / (1 + 1)) <-> z = (a + b) / (1 + 1)) /\
   (z = (a + b) / (1 + 1) -> (z - a) / (w / (1 + 1)) = (b - a) / w))%Qc.
Proof.
  intros W. split; [split|]; intros H.
  - assert (Q : (z - a = b - z)%Qc).
    { replace (z - a)%Qc with ((z - a) / (w / (1 + 1)) * (w / (1 + 1)))%Qc by (field; repeat split; first [exact W|tnz]). rewrite H. field. repeat split; first [exact W|tnz]. }
    replace z with ((z - a + a + z) / (1 + 1))%Qc at 1 by (field; tnz). rewrite Q. field. tnz.
  - subst z. field. repeat split; first [exact W|tnz].
  - subst z. field. repeat split; first [exact W|tnz].
Qed.

(** ** Other coefficients in the FISHPACK branch *)
Definition twice : coefs := Coefs (fun _ _ => 1%Qc) (fun _ _ => (1 + 1)%Qc) (fun _ _ => 0%Qc).
Definition sloped : coefs := Coefs (fun _ _ => 1%Qc) (fun _ _ => 1%Qc) (fun x _ => (- (x * x))%Qc).

Lemma twice_double G E i j : proper G -> elliptic twice G E i j = ((1 + 1) * elliptic (helmholtz 0) G E i j)%Qc.
Proof.
  intros HP. destruct (proper_widths G HP) as (Wx & Wy). unfold elliptic. cbn [twice helmholtz c_alpha c_beta c_lambda]. cbv zeta.
  revert Wx Wy. generalize (width_x G) (width_y G). intros. field. auto.
Qed.

Lemma sloped_extra G E i j : elliptic sloped G E i j = (elliptic (helmholtz 0) G E i j - mid_x G i * mid_x G i * E (Z.of_nat i) (Z.of_nat j))%Qc.
Proof. unfold elliptic. cbn [sloped helmholtz c_alpha c_beta c_lambda]. cbv zeta. ring. Qed.
