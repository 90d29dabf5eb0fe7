(** Proofs about the writers of VTK files. *)
From Coq Require Import Ascii String.
From Verif Require Import Base XmlModel XmlSpec XmlProofs.

(** ** Layout: the objects at the addresses from [n] on are listed in [L], those below are as in [h0] *)
Definition lay (h0 : heap) (n : nat) (L : list xobj) (h : heap) : Prop :=
  hnext h = n + length L /\ (forall i, hobj h (n + i) = nth_error L i) /\ (forall a, a < n -> hobj h a = hobj h0 a).

Fixpoint put {A} (l : list A) (i : nat) (x : A) : list A :=
  match l, i with [], _ => [] | _ :: l', 0 => x :: l' | y :: l', S i' => y :: put l' i' x end.
Lemma put_length {A} (l : list A) i x : length (put l i x) = length l.
Proof. revert i; induction l as [|y l IH]; intros [|i]; cbn; auto. Qed.
Lemma put_nth {A} (l : list A) i x j : i < length l ->
  nth_error (put l i x) j = if Nat.eqb i j then Some x else nth_error l j.
Proof.
  revert i j; induction l as [|y l IH]; intros [|i] [|j] H; cbn in *; try lia; auto. apply IH. lia.
Qed.

Definition with_child (o : xobj) (cs : list nat) : xobj := XObj (xname o) (xattrs o) (xdata o) (xchildren o ++ cs).

Lemma lay_start h : fresh h -> lay h (hnext h) [] h.
Proof. intros F. repeat split; cbn; auto. intros i. rewrite F by lia. destruct i; reflexivity. Qed.

Lemma lay_fresh h0 n L h : lay h0 n L h -> fresh h.
Proof.
  intros (E & H & _) a Ha. replace a with (n + (a - n)) by lia. rewrite H. apply nth_error_None. lia.
Qed.

Lemma lay_new h0 n L h o : lay h0 n L h ->
  exists h', hnew h o = (n + length L, h') /\ lay h0 n (L ++ [o]) h'.
Proof.
  intros (E & H & B). unfold hnew. rewrite E. eexists. split; [reflexivity|]. repeat split.
  - cbn. rewrite app_length. cbn. lia.
  - intros i. cbn. destruct (Nat.eqb_spec (n + length L) (n + i)) as [Q|Q].
    + assert (i = length L) by lia. subst. rewrite nth_error_app2, Nat.sub_diag by lia. reflexivity.
    + rewrite H. destruct (Nat.lt_ge_cases i (length L)).
      * rewrite nth_error_app1 by lia. reflexivity.
      * rewrite nth_error_app2 by lia. assert (nth_error L i = None) as -> by (apply nth_error_None; lia).
        destruct (i - length L) eqn:D; [lia|]. destruct n0; reflexivity.
  - intros a Ha. cbn. destruct (Nat.eqb_spec (n + length L) a); [lia|]. apply B, Ha.
Qed.

Lemma lay_add h0 n L h i o c : lay h0 n L h -> nth_error L i = Some o ->
  exists h', addChild h (n + i) c = Ok h' /\ lay h0 n (put L i (with_child o [c])) h'.
Proof.
  intros (E & H & B) Hi. assert (Li : i < length L) by (apply nth_error_Some; congruence).
  unfold addChild. rewrite H, Hi. eexists. split; [reflexivity|]. repeat split.
  - cbn. rewrite put_length. exact E.
  - intros j. cbn. rewrite put_nth by exact Li. destruct (Nat.eqb_spec (n + i) (n + j)) as [Q|Q], (Nat.eqb_spec i j) as [Q'|Q']; try lia; auto.
  - intros a Ha. cbn. destruct (Nat.eqb_spec (n + i) a); [lia|]. apply B, Ha.
Qed.

Lemma lay_root h0 n L h r o c : lay h0 n L h -> r < n -> hobj h0 r = Some o ->
  exists h', addChild h r c = Ok h' /\ lay (hset h0 r (Some (with_child o [c]))) n L h'.
Proof.
  intros (E & H & B) Hr Ho. unfold addChild. rewrite B, Ho by exact Hr. eexists. split; [reflexivity|]. repeat split.
  - exact E.
  - intros j. cbn. destruct (Nat.eqb_spec r (n + j)); [lia|]. apply H.
  - intros a Ha. cbn. destruct (Nat.eqb_spec r a); auto.
Qed.

Lemma with_child_app o a b : with_child (with_child o a) b = with_child o (a ++ b).
Proof. unfold with_child. cbn. rewrite app_assoc. reflexivity. Qed.

Lemma with_child_nil o : with_child o [] = o.
Proof. unfold with_child. rewrite app_nil_r. destruct o; reflexivity. Qed.

Lemma put_app {A} (l l' : list A) i x : i < length l -> put (l ++ l') i x = put l i x ++ l'.
Proof. revert i; induction l as [|y l IH]; intros [|i] H; cbn in *; try lia; auto. rewrite IH by lia. reflexivity. Qed.
Lemma put_put {A} (l : list A) i x y : put (put l i x) i y = put l i y.
Proof. revert i; induction l as [|z l IH]; intros [|i]; cbn; auto. rewrite IH. reflexivity. Qed.
Lemma put_same {A} (l : list A) i x : nth_error l i = Some x -> put l i x = l.
Proof. revert i; induction l as [|z l IH]; intros [|i]; cbn; intros H; try discriminate; [congruence|]. rewrite IH; auto. Qed.

Lemma lay_arrays mk ds os h0 n L h i o : Forall2 (fun d o => mk d = Ok o) ds os -> lay h0 n L h -> nth_error L i = Some o ->
  exists h', add_arrays mk h (n + i) ds = Ok h' /\
    lay h0 n (put L i (with_child o (seq (n + length L) (length ds))) ++ os) h'.
Proof.
  intros F. revert L h o. induction F as [|d x ds os Hd F IH]; intros L h o HL Hi; unfold add_arrays; cbn [foldM length seq].
  - exists h. split; [reflexivity|]. rewrite app_nil_r, with_child_nil, put_same by exact Hi. exact HL.
  - assert (Li : i < length L) by (apply nth_error_Some; congruence).
    rewrite Hd, bind_Ok. destruct (lay_new _ _ _ _ x HL) as (h1 & -> & HL1).
    destruct (lay_add _ _ _ _ i o (n + length L) HL1) as (h2 & -> & HL2).
    { rewrite nth_error_app1 by exact Li. exact Hi. }
    rewrite bind_Ok. rewrite put_app in HL2 by exact Li.
    destruct (IH _ _ (with_child o [n + length L]) HL2) as (h' & E & HL').
    { rewrite nth_error_app1 by (rewrite put_length; exact Li). rewrite put_nth by exact Li. rewrite Nat.eqb_refl. reflexivity. }
    exists h'. split; [exact E|]. rewrite put_app in HL' by (rewrite put_length; exact Li).
    rewrite put_put, with_child_app, <- app_assoc in HL'. rewrite app_length, put_length in HL'. cbn [length] in HL'.
    replace (n + (length L + 1)) with (S (n + length L)) in HL' by lia. exact HL'.
Qed.

(** Nodes without children. *)
Definition leaf (o : xobj) : xtree := XTree (xname o) (xattrs o) (xdata o) [].
Lemma trees_leaves h os k : Forall (fun o => xchildren o = []) os -> (forall i o, nth_error os i = Some o -> hobj h (k + i) = Some o) ->
  trees_at h (seq k (length os)) (map leaf os).
Proof.
  intros F. revert k. induction F as [|o os Ho F IH]; intros k H; cbn [length seq map]; constructor.
  - unfold leaf. replace (XTree _ _ _ _) with (XTree (xname o) (xattrs o) (xdata o) (map leaf [])) by reflexivity. apply tree_at_node.
    + specialize (H 0 o eq_refl). rewrite Nat.add_0_r in H. exact H.
    + rewrite Ho. constructor.
  - apply IH. intros i o' Hi. replace (S k + i) with (k + S i) by lia. apply H. exact Hi.
Qed.

Lemma lay_leaves h0 n A os B h : lay h0 n (A ++ os ++ B) h -> Forall (fun o => xchildren o = []) os ->
  trees_at h (seq (n + length A) (length os)) (map leaf os).
Proof.
  intros (_ & H & _) F. apply trees_leaves; [exact F|]. intros i o Hi.
  rewrite <- Nat.add_assoc, H, nth_error_app2 by lia. replace (length A + i - length A) with i by lia.
  rewrite nth_error_app1; [exact Hi|]. apply nth_error_Some. congruence.
Qed.

Lemma trees_at_app h l l' ts ts' : trees_at h l ts -> trees_at h l' ts' -> trees_at h (l ++ l') (ts ++ ts').
Proof. intros H. revert l' ts'. induction H; intros; cbn; [assumption|]. constructor; auto. Qed.

(** A node of the layout. *)
Lemma lay_node h0 n L h i nm at_ d cs ts : lay h0 n L h -> nth_error L i = Some (XObj nm at_ d cs) -> trees_at h cs ts ->
  tree_at h (n + i) (XTree nm at_ d ts).
Proof.
  intros (_ & H & _) Hi Ht. rewrite <- H in Hi. exact (tree_at_node h (n + i) _ ts Hi Ht).
Qed.

Lemma array_nodes ds : Forall has_range ds -> exists os,
  Forall2 (fun d o => array_node d = Ok o) ds os /\ Forall (fun o => xchildren o = []) os /\ Forall2 has_tree ds (map leaf os).
Proof.
  induction 1 as [|d ds [[mn H1] [mx H2]] F (os & IH1 & IH2 & IH3)].
  - exists []. cbn. auto.
  - eexists (_ :: os). split; [constructor; [|exact IH1]|]; [|split].
    + unfold array_node. rewrite H1, bind_Ok, H2, bind_Ok. reflexivity.
    + constructor; [reflexivity|exact IH2].
    + cbn [map]. constructor; [|exact IH3]. exists mn, mx. auto.
Qed.

Lemma parray_nodes ds : exists os,
  Forall2 (fun d o => parray_node d = Ok o) ds os /\ Forall (fun o => xchildren o = []) os /\ map leaf os = map parray_tree ds.
Proof.
  induction ds as [|d ds (os & IH1 & IH2 & IH3)].
  - exists []. cbn. auto.
  - eexists (_ :: os). split; [constructor; [reflexivity|exact IH1]|]; split.
    + constructor; [reflexivity|exact IH2].
    + cbn [map]. rewrite IH3. reflexivity.
Qed.

Lemma Forall2_len {A B} (R : A -> B -> Prop) l l' : Forall2 R l l' -> length l = length l'.
Proof. induction 1; cbn; congruence. Qed.

Ltac lnew :=
  match goal with
  | H : lay ?h0 ?n ?L ?h |- context [hnew ?h ?o] =>
      let h' := fresh "h" in let E := fresh in let H' := fresh "HL" in
      destruct (lay_new h0 n L h o H) as (h' & E & H'); rewrite E; clear E H; cbn [app length] in H'
  end.
Ltac ladd :=
  match goal with
  | H : lay ?h0 ?n ?L ?h |- context [addChild ?h (?n + ?i) ?c] =>
      let h' := fresh "h" in let E := fresh in let H' := fresh "HL" in
      destruct (lay_add h0 n L h i _ c H eq_refl) as (h' & E & H'); rewrite E, bind_Ok; clear E H;
      cbn [put with_child xname xattrs xdata xchildren app xnode] in H'
  end.

Lemma lay_add_if {A} (l : list A) h0 n L h i o c : lay h0 n L h -> nth_error L i = Some o ->
  exists h', addChild_if l h (n + i) c = Ok h' /\
    lay h0 n (put L i (with_child o (match l with [] => [] | _ => [c] end))) h'.
Proof.
  intros HL Hi. destruct l as [|x l]; cbn [addChild_if].
  - exists h. split; [reflexivity|]. rewrite with_child_nil, put_same by exact Hi. exact HL.
  - apply lay_add; assumption.
Qed.
Ltac lsimp H := cbn [put with_child xname xattrs xdata xchildren app xnode length] in H.
Ltac laddif :=
  match goal with
  | H : lay ?h0 ?n ?L ?h |- context [addChild_if ?l ?h (?n + ?i) ?c] =>
      let h' := fresh "h" in let E := fresh in let H' := fresh "HL" in
      destruct (lay_add_if l h0 n L h i _ c H eq_refl) as (h' & E & H'); rewrite E, bind_Ok; clear E H; lsimp H'
  end.
Ltac larrays N :=
  match goal with
  | H : lay ?h0 ?n ?L ?h |- context [add_arrays ?mk ?h (?n + ?i) ?ds] =>
      let h' := fresh "h" in let E := fresh in let H' := fresh "HL" in
      destruct (lay_arrays mk ds _ h0 n L h i _ N H eq_refl) as (h' & E & H'); rewrite E, bind_Ok; clear E H;
      lsimp H'; rewrite ?app_length in H'
  end.
Ltac lroot Hr Ho :=
  match goal with
  | H : lay ?h0 ?n ?L ?h |- context [addChild ?h ?r ?c] =>
      let h' := fresh "h" in let E := fresh in let H' := fresh "HL" in
      destruct (lay_root h0 n L h r _ c H Hr Ho) as (h' & E & H'); rewrite E, bind_Ok; clear E H
  end.

Definition hfree_all (l : list nat) (h : heap) : heap := fold_left hfree l h.
Lemma hfree_next l h : hnext (fold_left hfree l h) = hnext h.
Proof. revert h; induction l as [|a l IH]; intros h; cbn; [reflexivity|]. rewrite IH. reflexivity. Qed.
Lemma hfree_other l h a : ~ In a l -> hobj (fold_left hfree l h) a = hobj h a.
Proof.
  revert h; induction l as [|b l IH]; intros h H; cbn; [reflexivity|]. cbn in H. rewrite IH by tauto. cbn.
  destruct (Nat.eqb_spec b a); [tauto|reflexivity].
Qed.
Lemma hfree_in l h a : In a l -> hobj (fold_left hfree l h) a = None.
Proof.
  revert h; induction l as [|b l IH]; intros h H; cbn; [destruct H|].
  destruct (in_dec Nat.eq_dec a l) as [Q|Q]; [apply IH, Q|]. rewrite hfree_other by exact Q. cbn.
  destruct H as [->|H]; [|tauto]. rewrite Nat.eqb_refl. reflexivity.
Qed.
Lemma hfree_fresh l h : fresh h -> fresh (fold_left hfree l h).
Proof.
  intros F a Ha. rewrite hfree_next in Ha. destruct (in_dec Nat.eq_dec a l) as [Q|Q]; [apply hfree_in, Q|].
  rewrite hfree_other by exact Q. apply F, Ha.
Qed.

Lemma group_tree {A} h0 n L h i c nm ds cs ts (_ : A) : lay h0 n L h -> c = n + i ->
  nth_error L i = Some (with_child (xnode (txt nm) (scalars ds)) cs) -> trees_at h cs ts ->
  trees_at h (match ds with [] => [] | _ => [c] end) (group_if nm ds ts).
Proof.
  intros HL -> Hi Ht. destruct ds as [|d ds]; cbn [group_if]; [constructor|]. constructor; [|constructor].
  unfold group. eapply lay_node; [exact HL|exact Hi|exact Ht].
Qed.

(** ** Writing an unstructured grid: the heap before the text is written *)
Lemma uToVTK_run stack w h m o : fresh h -> umesh_ w = Some m -> mesh_has_range m -> Forall has_range (ucell w) -> Forall has_range (upoint w) ->
  hobj h (uroot w) = Some o ->
  exists h' t g, 
    uToVTK stack w h = (t <- write stack h' (uroot w) ;; 
       Ok (fold_left hfree (seq (hnext h) 6) h', t)) /\
    fresh h' /\ hnext h + 6 <= hnext h' /\ 
    (forall a, a < hnext h -> a <> uroot w -> hobj h' a = hobj h a) /\
    hobj h' (uroot w) = Some (with_child o [hnext h]) /\
    tree_at h' (hnext h) g /\ t = vtk_file "UnstructuredGrid" g /\ describes_mesh m (ucell w) (upoint w) t.
Proof.
  intros F Em (R1 & R2 & R3 & R4) Rc Rp Ho.
  assert (Hr : uroot w < hnext h).
  { destruct (Nat.lt_ge_cases (uroot w) (hnext h)); [assumption|]. rewrite F in Ho by assumption. discriminate. }
  destruct (array_nodes [um_points m]) as (o1 & N1 & C1 & T1); [auto|].
  destruct (array_nodes [um_connectivity m; um_offsets m; um_types m]) as (o2 & N2 & C2 & T2); [auto|].
  destruct (array_nodes (ucell w) Rc) as (o3 & N3 & C3 & T3).
  destruct (array_nodes (upoint w) Rp) as (o4 & N4 & C4 & T4).
  pose proof (lay_start h F) as HL. set (n := hnext h) in *.
  unfold uToVTK. rewrite Em.
  do 6 lnew. cbn [length].
  lroot Hr Ho. set (h0' := hset h (uroot w) _) in *.
  ladd. ladd. larrays N1. ladd. larrays N2. laddif. larrays N3. laddif. larrays N4.
  try match goal with H : lay _ _ _ _ |- _ => rename H into HL end.
  rewrite !with_child_app in HL.
  pose proof (Forall2_len _ _ _ N1) as L1. pose proof (Forall2_len _ _ _ N2) as L2.
  pose proof (Forall2_len _ _ _ N3) as L3. pose proof (Forall2_len _ _ _ N4) as L4.
  match type of HL with lay _ _ (?a :: ?b :: ?c :: ?d :: ?e :: ?f :: _) _ => set (P := [a; b; c; d; e; f]) in * end.
  assert (HP : lay h0' n (P ++ o1 ++ o2 ++ o3 ++ o4) h15) by (rewrite !app_assoc; exact HL). clear HL.
  assert (K1 := lay_leaves _ _ P o1 _ _ HP C1).
  assert (K2 : trees_at h15 (seq (n + length (P ++ o1)) (length o2)) (map leaf o2)).
  { apply (lay_leaves h0' n (P ++ o1) o2 (o3 ++ o4) h15); [|exact C2]. rewrite <- app_assoc. exact HP. }
  assert (K3 : trees_at h15 (seq (n + length (P ++ o1 ++ o2)) (length o3)) (map leaf o3)).
  { apply (lay_leaves h0' n (P ++ o1 ++ o2) o3 o4 h15); [|exact C3]. rewrite <- !app_assoc. exact HP. }
  assert (K4 : trees_at h15 (seq (n + length (P ++ o1 ++ o2 ++ o3)) (length o4)) (map leaf o4)).
  { apply (lay_leaves h0' n (P ++ o1 ++ o2 ++ o3) o4 [] h15); [|exact C4]. rewrite app_nil_r, <- !app_assoc. exact HP. }
  rewrite <- L1 in K1. rewrite <- L2 in K2. rewrite <- L3 in K3. rewrite <- L4 in K4.
  rewrite !app_length in K2. rewrite !app_length in K3. rewrite !app_length, (Nat.add_assoc (length o1)) in K4.
  assert (D : exists pts conn offs typs, map leaf o1 = [pts] /\ map leaf o2 = [conn; offs; typs] /\
     has_tree (um_points m) pts /\ has_tree (um_connectivity m) conn /\ has_tree (um_offsets m) offs /\ has_tree (um_types m) typs).
  { clear - T1 T2. inversion T1 as [|? pts ? l1 Q1 Q1']; subst. inversion Q1'; subst.
    inversion T2 as [|? conn ? l2 Q2 Q2']; subst. inversion Q2' as [|? offs ? l3 Q3 Q3']; subst.
    inversion Q3' as [|? typs ? l4 Q4 Q4']; subst. inversion Q4'; subst.
    exists pts, conn, offs, typs. repeat (split; [auto|]). auto. }
  destruct D as (pts & conn & offs & typs & D1 & D2 & D3 & D4 & D5 & D6). rewrite D1 in K1. rewrite D2 in K2.
  eexists h15, _, _. repeat apply conj.
  - cbn [seq]. replace (n + 0) with n by lia. replace (n + 1) with (S n) by lia. replace (n + 2) with (S (S n)) by lia.
    replace (n + 3) with (S (S (S n))) by lia. replace (n + 4) with (S (S (S (S n)))) by lia.
    replace (n + 5) with (S (S (S (S (S n))))) by lia. reflexivity.
  - exact (lay_fresh _ _ _ _ HP).
  - destruct HP as (E & _). rewrite E, app_length. cbn. lia.
  - intros a Ha Hne. destruct HP as (_ & _ & B). rewrite B by exact Ha. cbn. destruct (Nat.eqb_spec (uroot w) a); congruence.
  - destruct HP as (_ & _ & B). rewrite B by exact Hr. cbn. rewrite Nat.eqb_refl, Nat.add_0_r. reflexivity.
  - replace n with (n + 0) by lia. eapply lay_node; [exact HP|reflexivity|].
    constructor; [|constructor]. eapply lay_node; [exact HP|reflexivity|].
    rewrite <- ?app_assoc. cbn [app xchildren xnode]. constructor; [|constructor].
    + eapply lay_node; [exact HP|reflexivity|exact K1].
    + eapply lay_node; [exact HP|reflexivity|exact K2].
    + apply trees_at_app.
      * eapply group_tree; [exact I|exact HP|reflexivity|reflexivity|exact K3].
      * eapply group_tree; [exact I|exact HP|reflexivity|reflexivity|exact K4].
  - reflexivity.
  - exists pts, conn, offs, typs, (map leaf o3), (map leaf o4). repeat (split; [assumption|]). reflexivity.
Qed.

(** ** Rectilinear grids *)
Lemma rToVTK_run stack w h whole extent o : fresh h -> rmesh_ w = Some (whole, extent) ->
  Forall has_range (rcoords w) -> Forall has_range (rcell w) -> Forall has_range (rpoint w) ->
  hobj h (rroot w) = Some o ->
  exists h' t g,
    rToVTK stack w h = (t <- write stack h' (rroot w) ;; Ok (fold_left hfree (seq (hnext h) 5) h', t)) /\
    fresh h' /\ hnext h + 5 <= hnext h' /\
    (forall a, a < hnext h -> a <> rroot w -> hobj h' a = hobj h a) /\
    hobj h' (rroot w) = Some (with_child o [hnext h]) /\
    tree_at h' (hnext h) g /\ t = vtk_file "RectilinearGrid" g /\
    describes_grid whole extent (rcoords w) (rcell w) (rpoint w) t.
Proof.
  intros F Em Rx Rc Rp Ho.
  assert (Hr : rroot w < hnext h).
  { destruct (Nat.lt_ge_cases (rroot w) (hnext h)); [assumption|]. rewrite F in Ho by assumption. discriminate. }
  destruct (array_nodes (rcell w) Rc) as (o1 & N1 & C1 & T1).
  destruct (array_nodes (rpoint w) Rp) as (o2 & N2 & C2 & T2).
  destruct (array_nodes (rcoords w) Rx) as (o3 & N3 & C3 & T3).
  pose proof (lay_start h F) as HL. set (n := hnext h) in *.
  unfold rToVTK. rewrite Em.
  do 5 lnew. cbn [length].
  lroot Hr Ho. set (h0' := hset h (rroot w) _) in *.
  ladd. laddif. laddif. ladd. larrays N1. larrays N2. larrays N3.
  try match goal with H : lay _ _ _ _ |- _ => rename H into HL end.
  rewrite !with_child_app in HL.
  pose proof (Forall2_len _ _ _ N1) as L1. pose proof (Forall2_len _ _ _ N2) as L2. pose proof (Forall2_len _ _ _ N3) as L3.
  match type of HL with lay _ _ (?a :: ?b :: ?c :: ?d :: ?e :: _) ?hh => set (P := [a; b; c; d; e]) in *; set (hf := hh) in * end.
  assert (HP : lay h0' n (P ++ o1 ++ o2 ++ o3) hf) by (rewrite !app_assoc; exact HL). clear HL.
  assert (K1 := lay_leaves _ _ P o1 _ _ HP C1).
  assert (K2 : trees_at hf (seq (n + length (P ++ o1)) (length o2)) (map leaf o2)).
  { apply (lay_leaves h0' n (P ++ o1) o2 o3 hf); [|exact C2]. rewrite <- app_assoc. exact HP. }
  assert (K3 : trees_at hf (seq (n + length (P ++ o1 ++ o2)) (length o3)) (map leaf o3)).
  { apply (lay_leaves h0' n (P ++ o1 ++ o2) o3 [] hf); [|exact C3]. rewrite app_nil_r, <- !app_assoc. exact HP. }
  rewrite <- L1 in K1. rewrite <- L2 in K2. rewrite <- L3 in K3.
  rewrite !app_length in K2. rewrite !app_length in K3.
  eexists hf, _, _. repeat apply conj.
  - cbn [seq]. replace (n + 0) with n by lia. replace (n + 1) with (S n) by lia. replace (n + 2) with (S (S n)) by lia.
    replace (n + 3) with (S (S (S n))) by lia. replace (n + 4) with (S (S (S (S n)))) by lia. reflexivity.
  - exact (lay_fresh _ _ _ _ HP).
  - destruct HP as (E & _). rewrite E, app_length. cbn. lia.
  - intros a Ha Hne. destruct HP as (_ & _ & B). rewrite B by exact Ha. cbn. destruct (Nat.eqb_spec (rroot w) a); congruence.
  - destruct HP as (_ & _ & B). rewrite B by exact Hr. cbn. rewrite Nat.eqb_refl, Nat.add_0_r. reflexivity.
  - replace n with (n + 0) by lia. eapply lay_node; [exact HP|reflexivity|].
    constructor; [|constructor]. eapply lay_node; [exact HP|reflexivity|].
    rewrite <- ?app_assoc. cbn [app xchildren xnode]. apply trees_at_app; [|apply trees_at_app].
    + eapply group_tree; [exact I|exact HP|reflexivity|reflexivity|exact K1].
    + eapply group_tree; [exact I|exact HP|reflexivity|reflexivity|exact K2].
    + constructor; [|constructor]. eapply lay_node; [exact HP|reflexivity|exact K3].
  - reflexivity.
  - exists (map leaf o3), (map leaf o1), (map leaf o2). repeat (split; [assumption|]). reflexivity.
Qed.

(** ** Dead children *)
Lemma write_not_throw stack : forall h a p e, write_ stack h a p <> Throw e.
Proof.
  induction stack as [|stack IH]; intros h a p e H; cbn [write_] in H; [discriminate|].
  destruct (hobj h a) as [o|]; [|discriminate].
  assert (E : forall l, mapM (fun c => write_ stack h c (p ++ txt "  ")) l <> Throw e).
  { induction l as [|c l IHl]; cbn [mapM]; [discriminate|]. destruct (write_ stack h c (p ++ txt "  ")) eqn:E1; cbn [bind]; [|intros Q; injection Q as ->; exact (IH _ _ _ _ E1)|discriminate].
    destruct (mapM _ l) eqn:E2; cbn [bind]; [discriminate| |discriminate]. intros Q; injection Q as ->. exact (IHl eq_refl). }
  specialize (E (xchildren o)). destruct (mapM _ _); cbn [bind] in H; try discriminate. congruence.
Qed.

Lemma write_dead stack h r o a : hobj h r = Some o -> In a (xchildren o) -> hobj h a = None -> write stack h r = UB.
Proof.
  intros Ho Ha Hd. unfold write. destruct stack as [|stack]; [reflexivity|]. cbn [write_]. rewrite Ho.
  assert (E : mapM (fun c => write_ stack h c ([] ++ txt "  ")) (xchildren o) = UB).
  { induction (xchildren o) as [|c l IH]; [destruct Ha|]. cbn [mapM].
    destruct (write_ stack h c ([] ++ txt "  ")) as [t|e|] eqn:E1; cbn [bind].
    - destruct Ha as [->|Ha].
      + exfalso. destruct stack; cbn [write_] in E1; [discriminate|]. rewrite Hd in E1. discriminate.
      + rewrite IH by exact Ha. reflexivity.
    - exfalso. exact (write_not_throw _ _ _ _ _ E1).
    - reflexivity. }
  rewrite E. reflexivity.
Qed.

(** ** Heights *)
Lemma height_le n a d ch k : Forall (fun t => height t <= k) ch -> height (XTree n a d ch) <= S k.
Proof. intros H. cbn [height]. apply le_n_S. induction H; cbn [fold_right]; lia. Qed.

Lemma has_tree_height d t : has_tree d t -> height t <= 1.
Proof. intros (mn & mx & _ & _ & ->). cbn. lia. Qed.
Lemma has_trees_height ds ts : Forall2 has_tree ds ts -> Forall (fun t => height t <= 1) ts.
Proof. induction 1; constructor; auto. eapply has_tree_height; eauto. Qed.
Lemma group_if_height nm ds ts k : Forall (fun t => height t <= k) ts -> Forall (fun t => height t <= S k) (group_if nm ds ts).
Proof. intros H. destruct ds; cbn [group_if]; constructor; [|constructor]. apply height_le, H. Qed.

Lemma mesh_height m c p t : describes_mesh m c p t -> height t <= 5.
Proof.
  intros (a1 & a2 & a3 & a4 & cs & ps & H1 & H2 & H3 & H4 & H5 & H6 & ->).
  apply has_tree_height in H1, H2, H3, H4. apply has_trees_height in H5, H6.
  apply height_le. constructor; [|constructor]. apply height_le. constructor; [|constructor]. apply height_le.
  apply Forall_app; split; [|apply Forall_app; split; apply group_if_height; assumption].
  constructor; [apply height_le; auto|]. constructor; [apply height_le; auto|]. constructor.
Qed.
Lemma grid_height w e x c p t : describes_grid w e x c p t -> height t <= 5.
Proof.
  intros (xs & cs & ps & H1 & H2 & H3 & ->). apply has_trees_height in H1, H2, H3.
  apply height_le. constructor; [|constructor]. apply height_le. constructor; [|constructor]. apply height_le.
  apply Forall_app; split; [apply group_if_height; assumption|]. apply Forall_app; split; [apply group_if_height; assumption|].
  constructor; [|constructor]. apply height_le; assumption.
Qed.
Lemma pvtu_height m c p ns : height (pvtu_tree m c p ns) <= 5.
Proof.
  assert (A : forall l, Forall (fun t => height t <= 1) (map parray_tree l)) by (induction l; cbn; constructor; auto).
  apply height_le. constructor; [|constructor]. apply height_le. apply Forall_app. split.
  - constructor; [apply height_le; repeat constructor|]. constructor; [apply height_le|].
    + eapply Forall_impl; [|apply A]. intros; cbn beta in *; lia.
    + constructor; [apply height_le|constructor]. eapply Forall_impl; [|apply A]. intros; cbn beta in *; lia.
  - induction ns; cbn [map]; constructor; [cbn; lia|assumption].
Qed.

(** ** File names *)
From Coq Require DecimalNat.

Lemma c_str_id s : no_nul s = true -> c_str s = s.
Proof.
  unfold no_nul. induction s as [|c s IH]; cbn; [reflexivity|]. rewrite andb_true_iff. intros [H1 H2].
  apply negb_true_iff in H1. rewrite H1, IH by exact H2. reflexivity.
Qed.

Lemma printf_char c s args : Ascii.eqb c "%"%char = false -> printf (c :: s) args = (t <- printf s args ;; Ok (c :: t)).
Proof. intros H. destruct c as [[|] [|] [|] [|] [|] [|] [|] [|]]; try reflexivity. discriminate. Qed.

Lemma printf_app base s args : no_percent base = true -> printf (base ++ s) args = (t <- printf s args ;; Ok (base ++ t)).
Proof.
  unfold no_percent. induction base as [|c base IH]; cbn [app forallb]; intros H.
  - destruct (printf s args); reflexivity.
  - apply andb_true_iff in H as [H1 H2]. apply negb_true_iff in H1. rewrite printf_char, IH by assumption.
    destruct (printf s args); reflexivity.
Qed.

Definition full_name (base : text) (r : nat) : text := base ++ txt "_" ++ pad4 r ++ txt ".vtu".

Lemma uint_no_nul u : no_nul (uint_text u) = true.
Proof. unfold no_nul. induction u; cbn; auto. Qed.
Lemma repeat0_no_nul k : no_nul (repeat "0"%char k) = true.
Proof. unfold no_nul. induction k; cbn; auto. Qed.
Lemma no_nul_app a b : no_nul (a ++ b) = no_nul a && no_nul b.
Proof. apply forallb_app. Qed.
Lemma no_nul_firstn k s : no_nul s = true -> no_nul (firstn k s) = true.
Proof.
  unfold no_nul. revert k. induction s as [|c s IH]; intros [|k]; cbn; auto. rewrite !andb_true_iff. intros [H1 H2]. auto.
Qed.

Lemma piece_name_ok base r : no_percent base = true -> no_nul base = true -> piece_name base r = Ok (firstn 255 (full_name base r)).
Proof.
  intros Hp Hn. unfold piece_name. rewrite c_str_id by (rewrite no_nul_app, Hn; reflexivity). rewrite printf_app by exact Hp.
  change (printf (txt "_%04i.vtu") [r]) with (Ok (A:=text) (txt "_" ++ pad4 r ++ txt ".vtu")). rewrite !bind_Ok.
  rewrite c_str_id; [reflexivity|]. apply no_nul_firstn. rewrite !no_nul_app, Hn. unfold pad4.
  rewrite no_nul_app, repeat0_no_nul. unfold decimal. rewrite uint_no_nul. reflexivity.
Qed.

Definition digit (acc : nat) (c : ascii) : nat := 10 * acc + (nat_of_ascii c - 48).
Lemma digits_uint u : forall acc, fold_left digit (uint_text u) acc = Nat.of_uint_acc u acc.
Proof.
  induction u; intros acc; cbn [uint_text fold_left Nat.of_uint_acc]; [reflexivity|..];
    rewrite IHu; f_equal; rewrite Nat.tail_mul_spec; unfold digit;
    match goal with |- context [nat_of_ascii ?c] => let v := eval vm_compute in (nat_of_ascii c - 48) in change (nat_of_ascii c - 48) with v end; cbn [Nat.add]; lia.
Qed.
Lemma digits_pad4 n : fold_left digit (pad4 n) 0 = n.
Proof.
  unfold pad4. rewrite fold_left_app. replace (fold_left digit (repeat "0"%char _) 0) with 0.
  - unfold decimal. rewrite digits_uint. exact (DecimalNat.Unsigned.of_to n).
  - induction (4 - length (decimal n)) as [|k IH]; [reflexivity|]. cbn [repeat fold_left]. exact IH.
Qed.
Lemma pad4_inj a b : pad4 a = pad4 b -> a = b.
Proof. intros H. rewrite <- (digits_pad4 a), <- (digits_pad4 b), H. reflexivity. Qed.
Lemma full_name_inj base a b : full_name base a = full_name base b -> a = b.
Proof. unfold full_name. intros H. apply app_inv_head, app_inv_head, app_inv_tail in H. apply pad4_inj, H. Qed.

(** ** Parallel files *)
Definition piece_node (nm : text) : xobj := xnode (txt "Piece") [(txt "Source", nm)].

Lemma lay_pieces base nm rs : (forall r, piece_name base r = Ok (nm r)) -> forall h0 n L h acc, lay h0 n L h ->
  exists h', foldM (fun st i => x <- piece_name base i ;;
           let '(a, h1) := hnew (snd st) (xnode (txt "Piece") [(txt "Source", x)]) in Ok (fst st ++ [a], h1)) rs (acc, h)
    = Ok (acc ++ seq (n + length L) (length rs), h') /\ lay h0 n (L ++ map (fun r => piece_node (nm r)) rs) h'.
Proof.
  intros Hn. induction rs as [|r rs IH]; intros h0 n L h acc HL; cbn [foldM map length seq].
  - exists h. rewrite !app_nil_r. auto.
  - rewrite Hn, bind_Ok. cbn [snd fst]. destruct (lay_new _ _ _ _ (xnode (txt "Piece") [(txt "Source", nm r)]) HL) as (h1 & -> & HL1).
    rewrite bind_Ok. destruct (IH _ _ _ _ (acc ++ [n + length L]) HL1) as (h' & E & HL'). exists h'.
    rewrite app_length in E. cbn [length] in E. replace (n + (length L + 1)) with (S (n + length L)) in E by lia.
    rewrite <- app_assoc in HL', E. split; [exact E|exact HL'].
Qed.

Lemma lay_adds cs : forall h0 n L h i o, lay h0 n L h -> nth_error L i = Some o ->
  exists h', foldM (fun h a => addChild h (n + i) a) cs h = Ok h' /\ lay h0 n (put L i (with_child o cs)) h'.
Proof.
  induction cs as [|c cs IH]; intros h0 n L h i o HL Hi; cbn [foldM].
  - exists h. rewrite with_child_nil, put_same by exact Hi. auto.
  - assert (Li : i < length L) by (apply nth_error_Some; congruence).
    destruct (lay_add _ _ _ _ i o c HL Hi) as (h1 & -> & HL1). rewrite bind_Ok.
    destruct (IH _ _ _ _ i (with_child o [c]) HL1) as (h' & E & HL').
    { rewrite put_nth by exact Li. rewrite Nat.eqb_refl. reflexivity. }
    exists h'. split; [exact E|]. rewrite put_put, with_child_app in HL'. exact HL'.
Qed.

(** The first call for one writer. *)
Lemma uToVTK_first stack w h m o : 5 <= stack -> fresh h -> umesh_ w = Some m -> mesh_has_range m ->
  Forall has_range (ucell w) -> Forall has_range (upoint w) ->
  hobj h (uroot w) = Some o -> o = xnode (txt "VTKFile") (file_attrs "UnstructuredGrid") ->
  exists h' t, uToVTK stack w h = Ok (h', xml_line ++ text_of [] t) /\ describes_mesh m (ucell w) (upoint w) t /\
    fresh h' /\ hnext h < hnext h' /\ (forall a, a < hnext h -> a <> uroot w -> hobj h' a = hobj h a) /\
    hobj h' (uroot w) = Some (with_child o [hnext h]) /\ hobj h' (hnext h) = None.
Proof.
  intros Hs F Em R Rc Rp Ho Eo.
  assert (Hr : uroot w < hnext h).
  { destruct (Nat.lt_ge_cases (uroot w) (hnext h)); [assumption|]. rewrite F in Ho by assumption. discriminate. }
  destruct (uToVTK_run stack w h m o F Em R Rc Rp Ho) as (h' & t & g & E & F' & Hn & B & Hr' & Ht & Et & D).
  exists (fold_left hfree (seq (hnext h) 6) h'), t.
  assert (Hw : write stack h' (uroot w) = Ok (xml_line ++ text_of [] t)).
  { apply write_document; [|pose proof (mesh_height _ _ _ _ D); lia]. subst t o. 
    refine (tree_at_node h' _ _ [g] Hr' _). constructor; [exact Ht|constructor]. }
  rewrite E, Hw, bind_Ok. split; [reflexivity|]. split; [exact D|]. split; [apply hfree_fresh, F'|].
  split; [rewrite hfree_next; lia|]. split; [|split].
  - intros a Ha Hne. rewrite hfree_other by (rewrite in_seq; lia). auto.
  - rewrite hfree_other by (rewrite in_seq; lia). exact Hr'.
  - apply hfree_in. apply in_seq. lia.
Qed.

Lemma uToVTK_again stack w h m o a : fresh h -> umesh_ w = Some m -> mesh_has_range m ->
  Forall has_range (ucell w) -> Forall has_range (upoint w) ->
  hobj h (uroot w) = Some o -> In a (xchildren o) -> a < hnext h -> a <> uroot w -> hobj h a = None -> uToVTK stack w h = UB.
Proof.
  intros F Em R Rc Rp Ho Ha Hlt Hne Hd.
  destruct (uToVTK_run stack w h m o F Em R Rc Rp Ho) as (h' & t & g & E & F' & Hn & B & Hr' & _).
  rewrite E, (write_dead stack h' (uroot w) _ a Hr'); [reflexivity| |].
  - cbn. apply in_or_app. auto.
  - rewrite B by assumption. exact Hd.
Qed.

Lemma rToVTK_first stack w h whole extent o : 5 <= stack -> fresh h -> rmesh_ w = Some (whole, extent) ->
  Forall has_range (rcoords w) -> Forall has_range (rcell w) -> Forall has_range (rpoint w) ->
  hobj h (rroot w) = Some o -> o = xnode (txt "VTKFile") (file_attrs "RectilinearGrid") ->
  exists h' t, rToVTK stack w h = Ok (h', xml_line ++ text_of [] t) /\
    describes_grid whole extent (rcoords w) (rcell w) (rpoint w) t /\
    fresh h' /\ hnext h < hnext h' /\ (forall a, a < hnext h -> a <> rroot w -> hobj h' a = hobj h a) /\
    hobj h' (rroot w) = Some (with_child o [hnext h]) /\ hobj h' (hnext h) = None.
Proof.
  intros Hs F Em Rx Rc Rp Ho Eo.
  assert (Hr : rroot w < hnext h).
  { destruct (Nat.lt_ge_cases (rroot w) (hnext h)); [assumption|]. rewrite F in Ho by assumption. discriminate. }
  destruct (rToVTK_run stack w h whole extent o F Em Rx Rc Rp Ho) as (h' & t & g & E & F' & Hn & B & Hr' & Ht & Et & D).
  exists (fold_left hfree (seq (hnext h) 5) h'), t.
  assert (Hw : write stack h' (rroot w) = Ok (xml_line ++ text_of [] t)).
  { apply write_document; [|pose proof (grid_height _ _ _ _ _ _ D); lia]. subst t o.
    refine (tree_at_node h' _ _ [g] Hr' _). constructor; [exact Ht|constructor]. }
  rewrite E, Hw, bind_Ok. split; [reflexivity|]. split; [exact D|]. split; [apply hfree_fresh, F'|].
  split; [rewrite hfree_next; lia|]. split; [|split].
  - intros a Ha Hne. rewrite hfree_other by (rewrite in_seq; lia). auto.
  - rewrite hfree_other by (rewrite in_seq; lia). exact Hr'.
  - apply hfree_in. apply in_seq. lia.
Qed.

Lemma rToVTK_again stack w h whole extent o a : fresh h -> rmesh_ w = Some (whole, extent) ->
  Forall has_range (rcoords w) -> Forall has_range (rcell w) -> Forall has_range (rpoint w) ->
  hobj h (rroot w) = Some o -> In a (xchildren o) -> a < hnext h -> a <> rroot w -> hobj h a = None -> rToVTK stack w h = UB.
Proof.
  intros F Em Rx Rc Rp Ho Ha Hlt Hne Hd.
  destruct (rToVTK_run stack w h whole extent o F Em Rx Rc Rp Ho) as (h' & t & g & E & F' & Hn & B & Hr' & _).
  rewrite E, (write_dead stack h' (rroot w) _ a Hr'); [reflexivity| |].
  - cbn. apply in_or_app. auto.
  - rewrite B by assumption. exact Hd.
Qed.

(** The header. *)
Definition head_part (stack size : nat) (w : pwriter) (base nm t : text) (m : umesh) (h : heap) : res (heap * list (text * text)) :=
  let '(grid, h) := hnew h (xnode (txt "PUnstructuredGrid") [(txt "GhostLevel", txt "0")]) in
  let '(points, h) := hnew h (xnode (txt "PPoints") []) in
  let '(point_data, h) := hnew h (xnode (txt "PPointData") (scalars (upoint (pvtu w)))) in
  let '(cell_data, h) := hnew h (xnode (txt "PCellData") (scalars (ucell (pvtu w)))) in
  '(pieces, h) <- add_pieces base size h ;;
  h <- addChild h (proot w) grid ;;
  h <- addChild h grid points ;;
  h <- add_arrays parray_node h points [um_points m] ;;
  h <- addChild h grid point_data ;;
  h <- add_arrays parray_node h point_data (upoint (pvtu w)) ;;
  h <- addChild h grid cell_data ;;
  h <- add_arrays parray_node h cell_data (ucell (pvtu w)) ;;
  h <- foldM (fun h a => addChild h grid a) pieces h ;;
  t' <- write stack h (proot w) ;;
  Ok (fold_left hfree (grid :: points :: point_data :: cell_data :: pieces) h,
      [(nm, t); (base ++ txt ".pvtu", t')]).

Lemma head_run stack size w base nm t m h nf : 5 <= stack -> fresh h -> 
  hobj h (proot w) = Some (xnode (txt "VTKFile") (file_attrs "UnstructuredGrid")) ->
  (forall r, piece_name base r = Ok (nf r)) ->
  exists h', head_part stack size w base nm t m h =
    Ok (h', [(nm, t); (base ++ txt ".pvtu", 
      xml_line ++ text_of [] (pvtu_tree m (ucell (pvtu w)) (upoint (pvtu w)) (map nf (seq 0 size))))]) /\ fresh h' /\
    (forall a, a < hnext h -> a <> proot w -> hobj h' a = hobj h a) /\ hnext h <= hnext h'.
Proof.
  intros Hs F Ho Hn. unfold head_part.
  assert (Hr : proot w < hnext h).
  { destruct (Nat.lt_ge_cases (proot w) (hnext h)); [assumption|]. rewrite F in Ho by assumption. discriminate. }
  destruct (parray_nodes [um_points m]) as (o1 & N1 & C1 & T1).
  destruct (parray_nodes (upoint (pvtu w))) as (o2 & N2 & C2 & T2).
  destruct (parray_nodes (ucell (pvtu w))) as (o3 & N3 & C3 & T3).
  pose proof (lay_start h F) as HL. set (n := hnext h) in *.
  do 4 lnew. cbn [length].
  try match goal with H : lay _ _ _ _ |- _ => rename H into HL end.
  unfold add_pieces. destruct (lay_pieces base nf (seq 0 size) Hn _ _ _ _ [] HL) as (hp & -> & HL1).
  rewrite bind_Ok. clear HL. rename HL1 into HL. set (o0 := map _ (seq 0 size)) in HL. 
  cbn [app length] in *. rewrite seq_length.
  lroot Hr Ho. set (h0' := hset h (proot w) _) in *.
  ladd. larrays N1. ladd. larrays N2. ladd. larrays N3.
  try match goal with H : lay _ _ _ _ |- _ => rename H into HL end.
  match type of HL with lay ?h0 ?n ?L ?hh => 
    destruct (lay_adds (seq (n + 4) size) h0 n L hh 0 _ HL eq_refl) as (hf & -> & HF) end.
  rewrite bind_Ok. clear HL. lsimp HF. rewrite !with_child_app in HF.
  pose proof (Forall2_len _ _ _ N1) as L1. pose proof (Forall2_len _ _ _ N2) as L2. pose proof (Forall2_len _ _ _ N3) as L3.
  assert (C0 : Forall (fun o => xchildren o = []) o0).
  { apply Forall_forall. intros x Hx. unfold o0 in Hx. apply in_map_iff in Hx as (r & <- & _). reflexivity. }
  assert (L0 : size = length o0) by (unfold o0; rewrite map_length, seq_length; reflexivity).
  match type of HF with lay _ _ (?a :: ?b :: ?c :: ?d :: _) ?hh => set (P := [a; b; c; d]) in * end.
  assert (HP : lay h0' n (P ++ o0 ++ o1 ++ o2 ++ o3) hf) by (rewrite !app_assoc; exact HF). clear HF.
  assert (K0 := lay_leaves _ _ P o0 _ _ HP C0).
  assert (K1 : trees_at hf (seq (n + length (P ++ o0)) (length o1)) (map leaf o1)).
  { apply (lay_leaves h0' n (P ++ o0) o1 (o2 ++ o3) hf); [|exact C1]. rewrite <- app_assoc. exact HP. }
  assert (K2 : trees_at hf (seq (n + length (P ++ o0 ++ o1)) (length o2)) (map leaf o2)).
  { apply (lay_leaves h0' n (P ++ o0 ++ o1) o2 o3 hf); [|exact C2]. rewrite <- !app_assoc. exact HP. }
  assert (K3 : trees_at hf (seq (n + length (P ++ o0 ++ o1 ++ o2)) (length o3)) (map leaf o3)).
  { apply (lay_leaves h0' n (P ++ o0 ++ o1 ++ o2) o3 [] hf); [|exact C3]. rewrite app_nil_r, <- !app_assoc. exact HP. }
  rewrite <- L0 in K0. rewrite <- L1 in K1. rewrite <- L2 in K2. rewrite <- L3 in K3.
  rewrite !app_length in K1. rewrite !app_length in K2. rewrite !app_length, (Nat.add_assoc (length o0)) in K3.
  rewrite T1 in K1. rewrite T2 in K2. rewrite T3 in K3.
  assert (Hw : write stack hf (proot w) = Ok (xml_line ++ text_of []
    (pvtu_tree m (ucell (pvtu w)) (upoint (pvtu w)) (map nf (seq 0 size))))).
  { apply write_document; [|pose proof (pvtu_height m (ucell (pvtu w)) (upoint (pvtu w)) (map nf (seq 0 size))); lia].
    unfold pvtu_tree, vtk_file.
    assert (Hf : hobj hf (proot w) = Some (with_child (xnode (txt "VTKFile") (file_attrs "UnstructuredGrid")) [n + 0])).
    { destruct HP as (_ & _ & B). rewrite B by exact Hr. cbn. rewrite Nat.eqb_refl. reflexivity. }
    refine (tree_at_node hf _ _ [_] Hf _). constructor; [|constructor].
    eapply lay_node; [exact HP|reflexivity|]. rewrite <- ?app_assoc. cbn [app xchildren xnode].
    constructor; [|constructor; [|constructor]].
    - eapply lay_node; [exact HP|reflexivity|exact K1].
    - eapply lay_node; [exact HP|reflexivity|exact K2].
    - eapply lay_node; [exact HP|reflexivity|exact K3].
    - replace (map _ (map nf (seq 0 size))) with (map leaf o0); [exact K0|].
      unfold o0. rewrite !map_map. reflexivity. }
  rewrite Hw, bind_Ok. eexists. split; [reflexivity|]. split; [apply hfree_fresh; exact (lay_fresh _ _ _ _ HP)|]. split.
  - intros a Ha Hne. rewrite hfree_other.
    + destruct HP as (_ & _ & B). rewrite B by exact Ha. cbn. destruct (Nat.eqb_spec (proot w) a); congruence.
    + cbn [In]. rewrite in_seq. lia.
  - rewrite hfree_next. destruct HP as (-> & _). lia.
Qed.

Lemma pToVTK_first stack rank size w base h m nf : 5 <= stack -> fresh h -> umesh_ (pvtu w) = Some m -> mesh_has_range m ->
  Forall has_range (ucell (pvtu w)) -> Forall has_range (upoint (pvtu w)) ->
  hobj h (uroot (pvtu w)) = Some (xnode (txt "VTKFile") (file_attrs "UnstructuredGrid")) ->
  hobj h (proot w) = Some (xnode (txt "VTKFile") (file_attrs "UnstructuredGrid")) -> proot w <> uroot (pvtu w) ->
  (forall r, piece_name base r = Ok (nf r)) ->
  exists h' t, pToVTK stack rank size w base h = Ok (h', (nf rank, xml_line ++ text_of [] t) ::
     (if Nat.eqb rank 0 then [(base ++ txt ".pvtu", 
        xml_line ++ text_of [] (pvtu_tree m (ucell (pvtu w)) (upoint (pvtu w)) (map nf (seq 0 size))))] else [])) /\
    describes_mesh m (ucell (pvtu w)) (upoint (pvtu w)) t /\ fresh h' /\ hnext h < hnext h' /\
    hobj h' (uroot (pvtu w)) = Some (with_child (xnode (txt "VTKFile") (file_attrs "UnstructuredGrid")) [hnext h]) /\
    hobj h' (hnext h) = None.
Proof.
  intros Hs F Em R Rc Rp Hu Hp Hne Hn.
  assert (Hru : uroot (pvtu w) < hnext h).
  { destruct (Nat.lt_ge_cases (uroot (pvtu w)) (hnext h)); [assumption|]. rewrite F in Hu by assumption. discriminate. }
  assert (Hr : proot w < hnext h).
  { destruct (Nat.lt_ge_cases (proot w) (hnext h)); [assumption|]. rewrite F in Hp by assumption. discriminate. }
  destruct (uToVTK_first stack (pvtu w) h m _ Hs F Em R Rc Rp Hu eq_refl) as (h1 & t & E & D & F1 & Hlt & B & X1 & X2).
  unfold pToVTK. rewrite Hn, bind_Ok, E, bind_Ok. destruct (Nat.eqb rank 0).
  - rewrite Em. destruct (head_run stack size w base (nf rank) (xml_line ++ text_of [] t) m h1 nf Hs F1) as (h' & E' & F' & B' & Hlt').
    + rewrite B by assumption. exact Hp.
    + exact Hn.
    + exists h', t. split; [exact E'|]. split; [exact D|]. split; [exact F'|]. split; [lia|].
      split; (rewrite B'; [assumption|lia|]).
      * congruence.
      * lia.
  - exists h1, t. auto 10.
Qed.

(** A second call is undefined for the same reason as for the writer of the piece. *)
Lemma pToVTK_again stack rank size w base h m o a : fresh h -> umesh_ (pvtu w) = Some m -> mesh_has_range m ->
  Forall has_range (ucell (pvtu w)) -> Forall has_range (upoint (pvtu w)) ->
  hobj h (uroot (pvtu w)) = Some o -> In a (xchildren o) -> a < hnext h -> a <> uroot (pvtu w) -> hobj h a = None ->
  forall nm, piece_name base rank = Ok nm -> pToVTK stack rank size w base h = UB.
Proof.
  intros F Em R Rc Rp Ho Ha Hlt Hne Hd nm En. unfold pToVTK. rewrite En, bind_Ok.
  rewrite (uToVTK_again stack (pvtu w) h m o a) by assumption. reflexivity.
Qed.

