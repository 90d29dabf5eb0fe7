(** The grids made by the node factory tile the domain. *)
From Coq Require Import Lqa.
From Verif Require Import Base VectorModel MatrixModel HPSModel TreeModel TreeSpec FVMax.

Ltac qc := unfold Qclt, Qcle in *; repeat rewrite this_plus in *; repeat rewrite this_minus in *; lra.

Lemma two : q2 = (1 + 1)%Qc.
Proof. apply Qc_is_canon. reflexivity. Qed.

Lemma mid_sum a b : ((a + b) / q2 + (a + b) / q2 = a + b)%Qc.
Proof. rewrite two. field. intros H. apply (f_equal this) in H. vm_compute in H. discriminate. Qed.

Lemma qeq a b : (this a == this b)%Q -> a = b.
Proof. apply Qc_is_canon. Qed.

Lemma mid_sumq a b : (this ((a + b) / q2)%Qc + this ((a + b) / q2)%Qc == this a + this b)%Q.
Proof. rewrite <- !this_plus, mid_sum. reflexivity. Qed.

(** ** Intervals *)
Fixpoint iv (l u : Qc) (bs : list bool) : Qc * Qc :=
  match bs with
  | [] => (l, u)
  | b :: bs' => if b then iv ((l + u) / q2)%Qc u bs' else iv l ((l + u) / q2)%Qc bs'
  end.

Lemma iv_in l u bs : (l < u)%Qc ->
  (l <= fst (iv l u bs))%Qc /\ (fst (iv l u bs) < snd (iv l u bs))%Qc /\ (snd (iv l u bs) <= u)%Qc.
Proof.
  revert l u; induction bs as [|b bs IH]; intros l u H; cbn [iv fst snd].
  - split; [apply Qcle_refl|]. split; [exact H|apply Qcle_refl].
  - pose proof (mid_sumq l u) as M. set (m := ((l + u) / q2)%Qc) in *.
    destruct b.
    + destruct (IH m u) as (A & B & C); [qc|]. split; [qc|]. split; [exact B|exact C].
    + destruct (IH l m) as (A & B & C); [qc|]. split; [exact A|]. split; [exact B|qc].
Qed.

Lemma iv_tri l u bs bs' : (l < u)%Qc ->
  nested (fst (iv l u bs)) (snd (iv l u bs)) (fst (iv l u bs')) (snd (iv l u bs'))
  \/ (snd (iv l u bs) <= fst (iv l u bs'))%Qc \/ (snd (iv l u bs') <= fst (iv l u bs))%Qc.
Proof.
  revert l u bs'; induction bs as [|b bs IH]; intros l u bs' H.
  - left. left. cbn [iv fst snd]. destruct (iv_in l u bs' H) as (A & B & C). auto.
  - destruct bs' as [|b' bs'].
    + left. right. destruct (iv_in l u (b :: bs) H) as (A & B & C).
      change (iv l u []) with (l, u). cbn [fst snd]. auto.
    + cbn [iv]. pose proof (mid_sumq l u) as M. set (m := ((l + u) / q2)%Qc) in *.
      assert (H1 : (l < m)%Qc) by qc. assert (H2 : (m < u)%Qc) by qc.
      destruct b, b'.
      * apply IH; auto.
      * right. right. destruct (iv_in m u bs H2) as (A & _ & _). destruct (iv_in l m bs' H1) as (_ & _ & C). qc.
      * right. left. destruct (iv_in m u bs' H2) as (A & _ & _). destruct (iv_in l m bs H1) as (_ & _ & C). qc.
      * apply IH; auto.
Qed.

Lemma iv_width l u l' u' bs bs' : length bs = length bs' -> (u - l = u' - l')%Qc ->
  (snd (iv l u bs) - fst (iv l u bs) = snd (iv l' u' bs') - fst (iv l' u' bs'))%Qc.
Proof.
  revert l u l' u' bs'; induction bs as [|b bs IH]; intros l u l' u' [|b' bs'] HL H; try discriminate; [exact H|].
  cbn [iv]. injection HL as HL.
  pose proof (mid_sumq l u) as M. set (m := ((l + u) / q2)%Qc) in *.
  pose proof (mid_sumq l' u') as M'. set (m' := ((l' + u') / q2)%Qc) in *.
  apply (f_equal this) in H. assert (H' : (this u - this l == this u' - this l')%Q).
  { rewrite <- !this_minus, H. reflexivity. }
  destruct b, b'; apply IH; auto; apply qeq; rewrite !this_minus; lra.
Qed.

(** ** Grids *)
Definition grid_at (G : grid) (ds : list nat) : grid := fold_left child_grid ds G.
Definition xbits (ds : list nat) := map Nat.odd ds.
Definition ybits (ds : list nat) := map (fun i => Nat.odd (i / 2)) ds.

Ltac digits i Hi := do 4 (destruct i as [|i]; [| try (exfalso; lia)]); [ | | | | try (exfalso; lia)].

Lemma grid_at_iv G ds : Forall (fun i => i < 4) ds ->
  gxl (grid_at G ds) = fst (iv (gxl G) (gxu G) (xbits ds)) /\
  gxu (grid_at G ds) = snd (iv (gxl G) (gxu G) (xbits ds)) /\
  gyl (grid_at G ds) = fst (iv (gyl G) (gyu G) (ybits ds)) /\
  gyu (grid_at G ds) = snd (iv (gyl G) (gyu G) (ybits ds)) /\
  gnx (grid_at G ds) = gnx G /\ gny (grid_at G ds) = gny G.
Proof.
  unfold grid_at. revert G; induction ds as [|i ds IH]; intros G F.
  - cbn. auto 6.
  - inversion F as [|? ? Hi F']; subst. cbn [fold_left].
    destruct (IH (child_grid G i) F') as (A & B & C & D & E & E').
    rewrite A, B, C, D, E, E'.
    destruct i as [|[|[|[|i]]]]; [..|lia]; cbn; auto 6.
Qed.

Lemma leaf_digits f ds : In ds (leaf_paths f) -> Forall (fun i => i < 4) ds.
Proof.
  revert ds; induction f as [o|a IHa b IHb c IHc d IHd]; cbn [leaf_paths]; intros ds H.
  - destruct H as [<-|[]]. constructor.
  - rewrite !in_app_iff in H. rewrite !in_map_iff in H.
    destruct H as [(x & <- & H)|[(x & <- & H)|[(x & <- & H)|(x & <- & H)]]]; constructor; auto; lia.
Qed.

Lemma leaf_sub f ds : In ds (leaf_paths f) <-> exists o, sub f ds = Some (FLeaf o).
Proof.
  revert ds; induction f as [o|a IHa b IHb c IHc d IHd]; cbn [leaf_paths]; intros ds.
  - split.
    + intros [<-|[]]. exists o. reflexivity.
    + intros (o' & H). destruct ds; [left; reflexivity|cbn in H; discriminate].
  - rewrite !in_app_iff, !in_map_iff. split.
    + intros [(x & <- & H)|[(x & <- & H)|[(x & <- & H)|(x & <- & H)]]]; cbn; firstorder.
    + intros (o & H). destruct ds as [|i ds]; [cbn in H; discriminate|].
      destruct i as [|[|[|[|i]]]]; cbn in H; try discriminate.
      * left. exists ds. split; auto. apply IHa. eauto.
      * right; left. exists ds. split; auto. apply IHb. eauto.
      * right; right; left. exists ds. split; auto. apply IHc. eauto.
      * right; right; right. exists ds. split; auto. apply IHd. eauto.
Qed.

Lemma Qcsum_app l1 l2 : Qcsum (l1 ++ l2) = (Qcsum l1 + Qcsum l2)%Qc.
Proof.
  unfold Qcsum. induction l1 as [|a l1 IH]; cbn [app fold_right]; [ring|]. rewrite IH. ring.
Qed.

Lemma area_split G :
  (area (child_grid G 0) + area (child_grid G 1) + area (child_grid G 2) + area (child_grid G 3) = area G)%Qc.
Proof. unfold area. cbn [child_grid gxl gxu gyl gyu]. rewrite two. field. intros H. apply (f_equal this) in H. vm_compute in H. discriminate. Qed.

Lemma areas_sum f G : Qcsum (map (fun ds => area (grid_at G ds)) (leaf_paths f)) = area G.
Proof.
  revert G; induction f as [o|a IHa b IHb c IHc d IHd]; cbn [leaf_paths]; intros G.
  - unfold Qcsum. cbn [map fold_right]. unfold grid_at. cbn [fold_left]. ring.
  - rewrite !map_app, !map_map, !Qcsum_app.
    change (fun x => area (grid_at G (0 :: x))) with (fun x => area (grid_at (child_grid G 0) x)).
    change (fun x => area (grid_at G (1 :: x))) with (fun x => area (grid_at (child_grid G 1) x)).
    change (fun x => area (grid_at G (2 :: x))) with (fun x => area (grid_at (child_grid G 2) x)).
    change (fun x => area (grid_at G (3 :: x))) with (fun x => area (grid_at (child_grid G 3) x)).
    rewrite IHa, IHb, IHc, IHd, <- (area_split G). ring.
Qed.

Lemma child_proper G i : i < 4 -> proper_rect G -> proper_rect (child_grid G i).
Proof.
  intros Hi [Hx Hy]. unfold proper_rect.
  pose proof (mid_sumq (gxl G) (gxu G)) as Mx. pose proof (mid_sumq (gyl G) (gyu G)) as My.
  destruct i as [|[|[|[|i]]]]; [..|lia]; cbn [child_grid gxl gxu gyl gyu];
    set (mx := ((gxl G + gxu G) / q2)%Qc) in *; set (my := ((gyl G + gyu G) / q2)%Qc) in *; split; qc.
Qed.

Lemma grid_at_proper G ds : Forall (fun i => i < 4) ds -> proper_rect G -> proper_rect (grid_at G ds).
Proof.
  unfold grid_at. revert G; induction ds as [|i ds IH]; intros G F P; [exact P|].
  inversion F; subst. cbn. apply IH; auto. apply child_proper; auto.
Qed.

Lemma grid_at_within G ds x y : Forall (fun i => i < 4) ds -> proper_rect G ->
  (interior (grid_at G ds) x y -> interior G x y) /\ (inside (grid_at G ds) x y -> inside G x y).
Proof.
  intros F [Px Py]. destruct (grid_at_iv G ds F) as (A & B & C & D & _).
  destruct (iv_in _ _ (xbits ds) Px) as (X1 & X2 & X3). destruct (iv_in _ _ (ybits ds) Py) as (Y1 & Y2 & Y3).
  unfold interior, inside. rewrite A, B, C, D.
  split; intros (H1 & H2 & H3 & H4); repeat split; qc.
Qed.

Lemma children_disjoint G i j x y : i < 4 -> j < 4 -> i <> j -> proper_rect G ->
  interior (child_grid G i) x y -> interior (child_grid G j) x y -> False.
Proof.
  intros Hi Hj Hne _ (A1 & A2 & A3 & A4) (B1 & B2 & B3 & B4).
  destruct i as [|[|[|[|i]]]]; [..|lia]; (destruct j as [|[|[|[|j]]]]; [..|lia]); try lia;
    cbn [child_grid gxl gxu gyl gyu] in *; unfold Qclt in *; lra.
Qed.

Lemma leaves_disjoint f G ds ds' x y : proper_rect G ->
  In ds (leaf_paths f) -> In ds' (leaf_paths f) -> ds <> ds' ->
  interior (grid_at G ds) x y -> interior (grid_at G ds') x y -> False.
Proof.
  revert G ds ds'; induction f as [o|a IHa b IHb c IHc d IHd]; intros G ds ds' P H H' Hne.
  - cbn in H, H'. destruct H as [<-|[]], H' as [<-|[]]. congruence.
  - pose proof (leaf_digits _ _ H) as F. pose proof (leaf_digits _ _ H') as F'.
    apply leaf_sub in H as (o & H). apply leaf_sub in H' as (o' & H').
    destruct ds as [|i ds]; [cbn in H; discriminate|].
    destruct ds' as [|j ds']; [cbn in H'; discriminate|].
    inversion F as [|? ? Hi Fi]; subst. inversion F' as [|? ? Hj Fj]; subst.
    change (grid_at G (i :: ds)) with (grid_at (child_grid G i) ds).
    change (grid_at G (j :: ds')) with (grid_at (child_grid G j) ds').
    destruct (Nat.eq_dec i j) as [->|Hij].
    + assert (Hd : ds <> ds') by congruence. cbn [sub] in H, H'.
      destruct (fchild (FNode a b c d) j) as [f'|] eqn:Ef; [|discriminate].
      intros I1 I2.
      assert (L1 : In ds (leaf_paths f')) by (apply leaf_sub; eauto).
      assert (L2 : In ds' (leaf_paths f')) by (apply leaf_sub; eauto).
      pose proof (child_proper G j Hj P) as P'.
      destruct j as [|[|[|[|j]]]]; [..|lia]; cbn in Ef; injection Ef as <-; eauto.
    + intros I1 I2. apply (children_disjoint G i j x y); auto.
      * apply (grid_at_within _ ds); auto. apply child_proper; auto.
      * apply (grid_at_within _ ds'); auto. apply child_proper; auto.
Qed.

Lemma child_cover G x y : inside G x y -> exists i, i < 4 /\ inside (child_grid G i) x y.
Proof.
  intros (A & B & C & D).
  destruct (Qclt_le_dec x ((gxl G + gxu G) / q2)%Qc) as [Hx|Hx];
  destruct (Qclt_le_dec y ((gyl G + gyu G) / q2)%Qc) as [Hy|Hy].
  - exists 0. split; [lia|]. unfold inside; cbn. repeat split; auto; apply Qclt_le_weak; auto.
  - exists 2. split; [lia|]. unfold inside; cbn. repeat split; auto; apply Qclt_le_weak; auto.
  - exists 1. split; [lia|]. unfold inside; cbn. repeat split; auto; apply Qclt_le_weak; auto.
  - exists 3. split; [lia|]. unfold inside; cbn. repeat split; auto.
Qed.

Lemma leaves_cover f G x y : inside G x y ->
  exists ds, In ds (leaf_paths f) /\ inside (grid_at G ds) x y.
Proof.
  revert G; induction f as [o|a IHa b IHb c IHc d IHd]; intros G H.
  - exists []. split; [left; reflexivity|exact H].
  - destruct (child_cover G x y H) as (i & Hi & I). cbn [leaf_paths].
    destruct i as [|[|[|[|i]]]]; [..|lia];
    [destruct (IHa _ I) as (ds & L & J); exists (0 :: ds)
    |destruct (IHb _ I) as (ds & L & J); exists (1 :: ds)
    |destruct (IHc _ I) as (ds & L & J); exists (2 :: ds)
    |destruct (IHd _ I) as (ds & L & J); exists (3 :: ds)];
    (split; [rewrite !in_app_iff, !in_map_iff; eauto 10|exact J]).
Qed.

Lemma between a b : (a < b)%Qc -> exists m, (a < m)%Qc /\ (m < b)%Qc.
Proof.
  intros H. exists ((a + b) / q2)%Qc. pose proof (mid_sumq a b) as M.
  set (m := ((a + b) / q2)%Qc) in *. split; qc.
Qed.

(** Two leaves that touch along a vertical line. *)
Lemma leaves_share_x f G ds ds' y : proper_rect G ->
  In ds (leaf_paths f) -> In ds' (leaf_paths f) -> ds <> ds' ->
  let A := grid_at G ds in let B := grid_at G ds' in
  (gyl A < y)%Qc -> (y < gyu A)%Qc -> (gyl B < y)%Qc -> (y < gyu B)%Qc ->
  (gxl A <= gxu B)%Qc -> (gxl B <= gxu A)%Qc ->
  (gxu A = gxl B \/ gxu B = gxl A) /\
  nested (gyl A) (gyu A) (gyl B) (gyu B) /\
  (length ds = length ds' -> gyl A = gyl B /\ gyu A = gyu B).
Proof.
  intros P L L' Hne A B Y1 Y2 Y3 Y4 T1 T2.
  pose proof (leaf_digits _ _ L) as F. pose proof (leaf_digits _ _ L') as F'.
  destruct (grid_at_iv G ds F) as (A1 & A2 & A3 & A4 & _).
  destruct (grid_at_iv G ds' F') as (B1 & B2 & B3 & B4 & _).
  fold A in A1, A2, A3, A4. fold B in B1, B2, B3, B4.
  pose proof (iv_tri (gyl G) (gyu G) (ybits ds) (ybits ds') (proj2 P)) as TY.
  pose proof (iv_tri (gxl G) (gxu G) (xbits ds) (xbits ds') (proj1 P)) as TX.
  rewrite <- A1, <- A2, <- B1, <- B2 in TX. rewrite <- A3, <- A4, <- B3, <- B4 in TY.
  assert (PA : proper_rect A) by (apply grid_at_proper; auto).
  assert (PB : proper_rect B) by (apply grid_at_proper; auto).
  destruct PA as [PAx PAy], PB as [PBx PBy].
  assert (NY : nested (gyl A) (gyu A) (gyl B) (gyu B)).
  { destruct TY as [N|[N|N]]; [exact N| |]; exfalso; qc. }
  split; [|split; [exact NY|]].
  - destruct TX as [N|[N|N]].
    + exfalso. destruct N as [[N1 N2]|[N1 N2]].
      * destruct (between _ _ PBx) as (x & X1 & X2).
        apply (leaves_disjoint f G ds ds' x y); auto; unfold interior; fold A; fold B; repeat split; auto; qc.
      * destruct (between _ _ PAx) as (x & X1 & X2).
        apply (leaves_disjoint f G ds ds' x y); auto; unfold interior; fold A; fold B; repeat split; auto; qc.
    + left. apply qeq. qc.
    + right. apply qeq. qc.
  - intros HL.
    assert (W : (gyu A - gyl A = gyu B - gyl B)%Qc).
    { rewrite A3, A4, B3, B4. apply iv_width; [|reflexivity]. unfold ybits. rewrite !map_length. exact HL. }
    apply (f_equal this) in W. assert (W' : (this (gyu A) - this (gyl A) == this (gyu B) - this (gyl B))%Q).
    { rewrite <- !this_minus, W. reflexivity. }
    destruct NY as [[N1 N2]|[N1 N2]]; split; apply qeq; unfold Qcle in *; lra.
Qed.

(** Two leaves that touch along a horizontal line. *)
Lemma leaves_share_y f G ds ds' x : proper_rect G ->
  In ds (leaf_paths f) -> In ds' (leaf_paths f) -> ds <> ds' ->
  let A := grid_at G ds in let B := grid_at G ds' in
  (gxl A < x)%Qc -> (x < gxu A)%Qc -> (gxl B < x)%Qc -> (x < gxu B)%Qc ->
  (gyl A <= gyu B)%Qc -> (gyl B <= gyu A)%Qc ->
  (gyu A = gyl B \/ gyu B = gyl A) /\
  nested (gxl A) (gxu A) (gxl B) (gxu B) /\
  (length ds = length ds' -> gxl A = gxl B /\ gxu A = gxu B).
Proof.
  intros P L L' Hne A B Y1 Y2 Y3 Y4 T1 T2.
  pose proof (leaf_digits _ _ L) as F. pose proof (leaf_digits _ _ L') as F'.
  destruct (grid_at_iv G ds F) as (A1 & A2 & A3 & A4 & _).
  destruct (grid_at_iv G ds' F') as (B1 & B2 & B3 & B4 & _).
  fold A in A1, A2, A3, A4. fold B in B1, B2, B3, B4.
  pose proof (iv_tri (gyl G) (gyu G) (ybits ds) (ybits ds') (proj2 P)) as TY.
  pose proof (iv_tri (gxl G) (gxu G) (xbits ds) (xbits ds') (proj1 P)) as TX.
  rewrite <- A1, <- A2, <- B1, <- B2 in TX. rewrite <- A3, <- A4, <- B3, <- B4 in TY.
  assert (PA : proper_rect A) by (apply grid_at_proper; auto).
  assert (PB : proper_rect B) by (apply grid_at_proper; auto).
  destruct PA as [PAx PAy], PB as [PBx PBy].
  assert (NX : nested (gxl A) (gxu A) (gxl B) (gxu B)).
  { destruct TX as [N|[N|N]]; [exact N| |]; exfalso; qc. }
  split; [|split; [exact NX|]].
  - destruct TY as [N|[N|N]].
    + exfalso. destruct N as [[N1 N2]|[N1 N2]].
      * destruct (between _ _ PBy) as (y & X1 & X2).
        apply (leaves_disjoint f G ds ds' x y); auto; unfold interior; fold A; fold B; repeat split; auto; qc.
      * destruct (between _ _ PAy) as (y & X1 & X2).
        apply (leaves_disjoint f G ds ds' x y); auto; unfold interior; fold A; fold B; repeat split; auto; qc.
    + left. apply qeq. qc.
    + right. apply qeq. qc.
  - intros HL.
    assert (W : (gxu A - gxl A = gxu B - gxl B)%Qc).
    { rewrite A1, A2, B1, B2. apply iv_width; [|reflexivity]. unfold xbits. rewrite !map_length. exact HL. }
    apply (f_equal this) in W. assert (W' : (this (gxu A) - this (gxl A) == this (gxu B) - this (gxl B))%Q).
    { rewrite <- !this_minus, W. reflexivity. }
    destruct NX as [[N1 N2]|[N1 N2]]; split; apply qeq; unfold Qcle in *; lra.
Qed.
