(** Properties of written XML and VTK files. *)
From Coq Require Import Ascii String.
From Verif Require Import Base XmlModel XmlSpec.
From Verif Require Import XmlProofs VtkProofs.

(** ** XML text *)

(** [C45] For every tree of nodes with XML names, different attribute names per node, and
    values and data that need no escapes: the written text can be read in exactly
    one way, and this gives the names, attributes, data (without surrounding white
    space) and children of the tree, in order.  Missing: other characters in names,
    values and data, which are written as they are. *)
Lemma written_xml_reads_back_partial_pf : forall (stack : nat) (h : heap) (root : nat) (t : xtree),
  tree_at h root t -> height t <= stack -> plain t ->
  exists s, write stack h root = Ok s /\ holds_tree s t.
Proof.
  intros stack h root t Ht Hs P. eexists. split; [exact (write_document stack h root t Ht Hs)|]. exact (written_document t P).
Qed.

(** A tree with three levels, attributes and data. *)
Definition xml_example_tree : xtree :=
  XTree (txt "VTKFile") [(txt "type", txt "X")] [] [XTree (txt "A") [] (txt "1 2 3 ") []; XTree (txt "B") [] [] [XTree (txt "C") [] [] []]].
Definition xml_example_heap : heap :=
  Heap 4 (fun a => nth a [Some (XObj (txt "VTKFile") [(txt "type", txt "X")] [] [1; 2]); Some (XObj (txt "A") [] (txt "1 2 3 ") []);
     Some (XObj (txt "B") [] [] [3]); Some (XObj (txt "C") [] [] [])] None).
Lemma xml_example_expf : tree_at xml_example_heap 0 xml_example_tree /\ height xml_example_tree <= 3 /\ plain xml_example_tree.
Proof.
  split; [|split].
  - refine (tree_at_node xml_example_heap 0 (XObj _ _ _ [1; 2]) _ eq_refl _).
    constructor; [|constructor; [|constructor]].
    + refine (tree_at_node xml_example_heap 1 (XObj _ _ _ []) _ eq_refl _). constructor.
    + refine (tree_at_node xml_example_heap 2 (XObj _ _ _ [3]) _ eq_refl _). constructor; [|constructor].
      refine (tree_at_node xml_example_heap 3 (XObj _ _ _ []) _ eq_refl _). constructor.
  - cbn. lia.
  - repeat split; try (vm_compute; reflexivity); repeat constructor; cbn; tauto.
Qed.

(** A node whose data contains a less-than sign: the written text is no XML document. *)
Definition lt_heap : heap := Heap 1 (fun a => match a with 0 => Some (XObj (txt "A") [] (txt "<") []) | _ => None end).

Lemma lt_no_document e : ~ document (xml_line ++ text_of [] (XTree (txt "A") [] (txt "<") [])) e.
Proof.
  intros (s1 & s2 & E & H & _). cbn [text_of] in E.
  change (txt "<?xml version=""1.0""?>" ++ (newline :: txt "<A>" ++ newline :: txt "<" ++ newline :: txt "</A>" ++ [newline])
    = txt "<?xml version=""1.0""?>" ++ s1) in E. apply app_inv_head in E. subst s1.
  change (skip _) with (txt "<A>" ++ newline :: txt "<" ++ newline :: txt "</A>" ++ [newline]) in H.
  remember (txt "<A>" ++ newline :: txt "<" ++ newline :: txt "</A>" ++ [newline]) as s eqn:Es.
  destruct H as [n s0 attrs s1 items s3 s4 Hn Ha _ Hc _]. clear s4.
  change (txt "<" ++ n ++ s0 = txt "<" ++ txt "A" ++ (txt ">" ++ newline :: txt "<" ++ newline :: txt "</A>" ++ [newline])) in Es.
  apply app_inv_head in Es. apply (span_unique name_char) in Es as [-> ->];
    [|apply is_name_chars; exact Hn|reflexivity|exact (attributes_begin _ _ _ Ha)|reflexivity].
  remember (txt ">" ++ newline :: txt "<" ++ newline :: txt "</A>" ++ [newline]) as s eqn:Es.
  destruct Ha as [s r E|w n' v s l r Hw Hsp _ _ _].
  2:{ destruct w as [|c w]; [congruence|]. cbn in Es. injection Es as -> _. vm_compute in Hsp. discriminate. }
  subst s. change (txt ">" ++ newline :: txt "<" ++ newline :: txt "</A>" ++ [newline] = txt ">" ++ r) in E. apply app_inv_head in E. subst r.
  remember (newline :: txt "<" ++ newline :: txt "</A>" ++ [newline]) as s eqn:Es.
  destruct Hc as [s|s e s1 l s2 He _|t s l s2 Ht1 Ht2 _ Hs Hc].
  - discriminate.
  - apply element_starts in He as (c & s' & -> & _). discriminate.
  - change (t ++ s = [newline] ++ (txt "<" ++ newline :: txt "</A>" ++ [newline])) in Es.
    apply (span_unique char_data) in Es as [-> ->]; [|exact Ht2|reflexivity|destruct s; [exact I|injection Hs as ->; reflexivity]|reflexivity].
    remember (txt "<" ++ newline :: txt "</A>" ++ [newline]) as s eqn:Es. clear Hs.
    destruct Hc as [s|s e s1 l s2 He _|t s l s2 Ht1' Ht2' _ _ _].
    + discriminate.
    + apply element_starts in He as (c & s' & -> & Hc). injection Es as -> _. vm_compute in Hc. discriminate.
    + apply (char_data_not_lt t s Ht2' Ht1'). rewrite Es. reflexivity.
Qed.

(** [C45] Nothing is escaped: a tree whose text is not well-formed, and a tree whose text
    is well-formed but is read as a tree with another attribute. *)
Lemma written_xml_reads_back_refuted_pf :
  (exists h root t s, tree_at h root t /\ (forall stack, 1 <= stack -> write stack h root = Ok s) /\ forall e, ~ document s e) /\
  (exists h root t t' s, tree_at h root t /\ (forall stack, 1 <= stack -> write stack h root = Ok s) /\
     holds_tree s t' /\ trimmed t' <> trimmed t /\ ~ holds_tree s t).
Proof.
  split.
  - exists lt_heap, 0, (XTree (txt "A") [] (txt "<") []), (xml_line ++ text_of [] (XTree (txt "A") [] (txt "<") [])).
    assert (T : tree_at lt_heap 0 (XTree (txt "A") [] (txt "<") [])).
    { refine (tree_at_node lt_heap 0 (XObj _ _ _ []) _ eq_refl _). constructor. }
    split; [exact T|]. split; [|apply lt_no_document]. intros stack Hs. apply write_document; [exact T|exact Hs].
  - set (h := Heap 1 (fun a => match a with 0 => Some (XObj (txt "A") [(txt "k", txt "a"" b=""c")] [] []) | _ => None end)).
    set (t := XTree (txt "A") [(txt "k", txt "a"" b=""c")] [] []).
    set (t' := XTree (txt "A") [(txt "k", txt "a"); (txt "b", txt "c")] [] []).
    exists h, 0, t, t', (xml_line ++ text_of [] t).
    assert (T : tree_at h 0 t). { refine (tree_at_node h 0 (XObj _ _ _ []) _ eq_refl _). constructor. }
    assert (E : xml_line ++ text_of [] t = xml_line ++ text_of [] t') by reflexivity.
    assert (P : plain t').
    { repeat split; try (vm_compute; reflexivity). repeat constructor; cbn; intuition discriminate. }
    split; [exact T|]. split; [intros stack Hs; apply write_document; [exact T|exact Hs]|].
    rewrite E. split; [apply written_document, P|].
    assert (N : trimmed t' <> trimmed t) by discriminate.
    split; [exact N|]. intros (e & He & Hu & Hr). destruct (written_document t' P) as (e' & He' & _ & Hr').
    rewrite (Hu _ He') in Hr'. congruence.
Qed.

(** ** Writers *)
Lemma ufilled_spec h m cell point : fresh h ->
  exists h1 w, ufilled h m cell point = (w, h1) /\ fresh h1 /\ umesh_ w = Some m /\ ucell w = cell /\ upoint w = point /\
    hobj h1 (uroot w) = Some (xnode (txt "VTKFile") (file_attrs "UnstructuredGrid")).
Proof.
  intros F. unfold ufilled, new_uwriter. pose proof (lay_start h F) as HL. lnew.
  assert (A : forall l w, fold_left uaddCellData l w = UWriter (uroot w) (umesh_ w) (upoint w) (ucell w ++ l)).
  { induction l as [|d l IH]; intros w; cbn [fold_left]; [rewrite app_nil_r; destruct w; reflexivity|]. rewrite IH. cbn. rewrite <- app_assoc. reflexivity. }
  assert (B : forall l w, fold_left uaddPointData l w = UWriter (uroot w) (umesh_ w) (upoint w ++ l) (ucell w)).
  { induction l as [|d l IH]; intros w; cbn [fold_left]; [rewrite app_nil_r; destruct w; reflexivity|]. rewrite IH. cbn. rewrite <- app_assoc. reflexivity. }
  rewrite A, B. eexists _, _. split; [reflexivity|]. cbn. split; [exact (lay_fresh _ _ _ _ HL0)|]. repeat (split; [reflexivity|]).
  destruct HL0 as (_ & H & _). rewrite H. reflexivity.
Qed.
Lemma rfilled_spec h whole extent x y z cell point : fresh h ->
  exists h1 w, rfilled h whole extent x y z cell point = (w, h1) /\ fresh h1 /\ rmesh_ w = Some (whole, extent) /\
    rcoords w = map coordinates [x; y; z] /\ rcell w = cell /\ rpoint w = point /\
    hobj h1 (rroot w) = Some (xnode (txt "VTKFile") (file_attrs "RectilinearGrid")).
Proof.
  intros F. unfold rfilled, new_rwriter. pose proof (lay_start h F) as HL. lnew.
  assert (A : forall l w, fold_left raddCellData l w = RWriter (rroot w) (rmesh_ w) (rcoords w) (rpoint w) (rcell w ++ l)).
  { induction l as [|d l IH]; intros w; cbn [fold_left]; [rewrite app_nil_r; destruct w; reflexivity|]. rewrite IH. cbn. rewrite <- app_assoc. reflexivity. }
  assert (B : forall l w, fold_left raddPointData l w = RWriter (rroot w) (rmesh_ w) (rcoords w) (rpoint w ++ l) (rcell w)).
  { induction l as [|d l IH]; intros w; cbn [fold_left]; [rewrite app_nil_r; destruct w; reflexivity|]. rewrite IH. cbn. rewrite <- app_assoc. reflexivity. }
  rewrite A, B. eexists _, _. split; [reflexivity|]. cbn. split; [exact (lay_fresh _ _ _ _ HL0)|]. repeat (split; [reflexivity|]).
  destruct HL0 as (_ & H & _). rewrite H. reflexivity.
Qed.
Lemma pfilled_spec h m cell point : fresh h ->
  exists h1 w, pfilled h m cell point = (w, h1) /\ fresh h1 /\ umesh_ (pvtu w) = Some m /\ ucell (pvtu w) = cell /\ upoint (pvtu w) = point /\
    hobj h1 (uroot (pvtu w)) = Some (xnode (txt "VTKFile") (file_attrs "UnstructuredGrid")) /\
    hobj h1 (proot w) = Some (xnode (txt "VTKFile") (file_attrs "UnstructuredGrid")) /\ proot w <> uroot (pvtu w).
Proof.
  intros F. unfold pfilled, new_pwriter, new_uwriter. pose proof (lay_start h F) as HL. do 2 lnew.
  assert (A : forall l w, fold_left paddCellData l w = PWriter (proot w) (UWriter (uroot (pvtu w)) (umesh_ (pvtu w)) (upoint (pvtu w)) (ucell (pvtu w) ++ l))).
  { induction l as [|d l IH]; intros [r [a b c e]]; cbn [fold_left]; [cbn; rewrite app_nil_r; reflexivity|]. rewrite IH. cbn. rewrite <- app_assoc. reflexivity. }
  assert (B : forall l w, fold_left paddPointData l w = PWriter (proot w) (UWriter (uroot (pvtu w)) (umesh_ (pvtu w)) (upoint (pvtu w) ++ l) (ucell (pvtu w)))).
  { induction l as [|d l IH]; intros [r [a b c e]]; cbn [fold_left]; [cbn; rewrite app_nil_r; reflexivity|]. rewrite IH. cbn. rewrite <- app_assoc. reflexivity. }
  rewrite A, B. eexists _, _. split; [reflexivity|]. cbn. split; [exact (lay_fresh _ _ _ _ HL)|]. repeat (split; [reflexivity|]).
  destruct HL as (_ & H & _). rewrite !H. repeat (split; [reflexivity|]). lia.
Qed.

(** [C46] The first call on a new writer of an unstructured grid, for every mesh and data
    whose arrays have entries: the file describes the mesh and the data.  Missing:
    further calls on the same writer, arrays without entries. *)
Lemma first_unstructured_output_partial_pf : forall (stack : nat) (h : heap) (m : umesh) (cell point : list darray),
  5 <= stack -> fresh h -> mesh_has_range m -> Forall has_range cell -> Forall has_range point ->
  let '(w, h1) := ufilled h m cell point in
  exists h2 s, uToVTK stack w h1 = Ok (h2, s) /\ fresh h2 /\ file_of (describes_mesh m cell point) s.
Proof.
  intros stack h m cell point Hs F R Rc Rp. destruct (ufilled_spec h m cell point F) as (h1 & w & -> & F1 & Em & <- & <- & Ho).
  destruct (uToVTK_first stack w h1 m _ Hs F1 Em R Rc Rp Ho eq_refl) as (h2 & t & E & D & F2 & _).
  exists h2, (xml_line ++ text_of [] t). split; [exact E|]. split; [exact F2|]. exists t. split; [exact D|]. apply written_document.
Qed.

(** [C46] The same for rectilinear grids. *)
Lemma first_rectilinear_output_partial_pf : forall (stack : nat) (h : heap) (whole extent : text) (x y z : option darray) (cell point : list darray),
  5 <= stack -> fresh h -> Forall has_range (map coordinates [x; y; z]) -> Forall has_range cell -> Forall has_range point ->
  let '(w, h1) := rfilled h whole extent x y z cell point in
  exists h2 s, rToVTK stack w h1 = Ok (h2, s) /\ fresh h2 /\
    file_of (describes_grid whole extent (map coordinates [x; y; z]) cell point) s.
Proof.
  intros stack h whole extent x y z cell point Hs F Rx Rc Rp.
  destruct (rfilled_spec h whole extent x y z cell point F) as (h1 & w & -> & F1 & Em & Ex & <- & <- & Ho). rewrite <- Ex in *.
  destruct (rToVTK_first stack w h1 whole extent _ Hs F1 Em Rx Rc Rp Ho eq_refl) as (h2 & t & E & D & F2 & _).
  exists h2, (xml_line ++ text_of [] t). split; [exact E|]. split; [exact F2|]. exists t. split; [exact D|]. apply written_document.
Qed.

(** [C46] An unstructured writer that is given its mesh, or another mesh, after the data:
    the file describes the last mesh and all the data. *)
Lemma unstructured_last_mesh_partial_pf : forall (stack : nat) (h : heap) (m m' : umesh) (cell point : list darray),
  5 <= stack -> fresh h -> mesh_has_range m -> Forall has_range cell -> Forall has_range point ->
  (let '(w, h1) := ufilled h m' cell point in
   exists h2 s, uToVTK stack (ubuildMesh w m) h1 = Ok (h2, s) /\ file_of (describes_mesh m cell point) s) /\
  (let '(w, h1) := new_uwriter h in
   exists h2 s, uToVTK stack (ubuildMesh (fold_left uaddPointData point (fold_left uaddCellData cell w)) m) h1 = Ok (h2, s) /\
     file_of (describes_mesh m cell point) s).
Proof.
  intros stack h m m' cell point Hs F R Rc Rp.
  assert (A : let '(w, h1) := ufilled h m' cell point in
    exists h2 s, uToVTK stack (ubuildMesh w m) h1 = Ok (h2, s) /\ file_of (describes_mesh m cell point) s).
  { destruct (ufilled_spec h m' cell point F) as (h1 & w & -> & F1 & Em & Ec & Ep & Ho). rewrite <- Ec in Rc. rewrite <- Ep in Rp.
    destruct (uToVTK_first stack (ubuildMesh w m) h1 m _ Hs F1 eq_refl R Rc Rp Ho eq_refl) as (h2 & t & E & D & F2 & _).
    exists h2, (xml_line ++ text_of [] t). split; [exact E|]. exists t. split; [|apply written_document].
    cbn [ubuildMesh ucell upoint] in D. rewrite Ec, Ep in D. exact D. }
  split; [exact A|].
  unfold ufilled in A. destruct (new_uwriter h) as [w h1].
  replace (ubuildMesh (fold_left uaddPointData point (fold_left uaddCellData cell w)) m) with
    (ubuildMesh (fold_left uaddPointData point (fold_left uaddCellData cell (ubuildMesh w m'))) m); [exact A|].
  assert (B : forall l w w', uroot w = uroot w' -> ucell w = ucell w' -> upoint w = upoint w' ->
    let v := fold_left uaddCellData l w in let v' := fold_left uaddCellData l w' in
    uroot v = uroot v' /\ ucell v = ucell v' /\ upoint v = upoint v').
  { induction l as [|d l IH]; intros v v' E1 E2 E3; cbn [fold_left]; [auto|]. apply IH; cbn; congruence. }
  assert (B' : forall l w w', uroot w = uroot w' -> ucell w = ucell w' -> upoint w = upoint w' ->
    let v := fold_left uaddPointData l w in let v' := fold_left uaddPointData l w' in
    uroot v = uroot v' /\ ucell v = ucell v' /\ upoint v = upoint v').
  { induction l as [|d l IH]; intros v v' E1 E2 E3; cbn [fold_left]; [auto|]. apply IH; cbn; congruence. }
  destruct (B cell (ubuildMesh w m') w eq_refl eq_refl eq_refl) as (C1 & C2 & C3).
  destruct (B' point _ _ C1 C2 C3) as (D1 & D2 & D3). unfold ubuildMesh at 1 3. rewrite D1, D2, D3. reflexivity.
Qed.

(** [C46] A rectilinear writer that is given a second mesh before the output: the file has the extent of the second mesh,
    but the coordinates of the first mesh and then those of the second. *)
Lemma rectilinear_second_mesh_partial_pf : forall (stack : nat) (h : heap) (whole extent whole' extent' : text)
  (x y z x' y' z' : option darray) (cell point : list darray),
  5 <= stack -> fresh h -> Forall has_range (map coordinates [x; y; z; x'; y'; z']) -> Forall has_range cell -> Forall has_range point ->
  let '(w, h1) := rfilled h whole extent x y z cell point in
  exists h2 s, rToVTK stack (rbuildMesh w whole' extent' x' y' z') h1 = Ok (h2, s) /\
    file_of (describes_grid whole' extent' (map coordinates [x; y; z] ++ map coordinates [x'; y'; z']) cell point) s.
Proof.
  intros stack h whole extent whole' extent' x y z x' y' z' cell point Hs F Rx Rc Rp.
  destruct (rfilled_spec h whole extent x y z cell point F) as (h1 & w & -> & F1 & Em & Ex & <- & <- & Ho).
  assert (Ew : rcoords (rbuildMesh w whole' extent' x' y' z') = map coordinates [x; y; z] ++ map coordinates [x'; y'; z']).
  { unfold rbuildMesh. cbn [rcoords]. rewrite Ex. reflexivity. }
  destruct (rToVTK_first stack (rbuildMesh w whole' extent' x' y' z') h1 whole' extent' (xnode (txt "VTKFile") (file_attrs "RectilinearGrid")) Hs F1 eq_refl) as (h2 & t & E & D & _).
  - rewrite Ew. exact Rx.
  - exact Rc.
  - exact Rp.
  - exact Ho.
  - reflexivity.
  - rewrite Ew in D. exists h2, (xml_line ++ text_of [] t). split; [exact E|]. exists t. split; [exact D|]. apply written_document.
Qed.

(** An array with two entries, a mesh. *)
Definition some_array : darray := vector_array (txt "Int32") (txt "a") (txt "1") (txt "1") (txt "2") [txt "1"; txt "2"].
Definition some_mesh : umesh := UMesh (txt "4") (txt "1") some_array some_array some_array some_array.
Lemma some_range : has_range some_array.
Proof. split; eexists; reflexivity. Qed.
Lemma output_example_expf : fresh empty_heap /\ mesh_has_range some_mesh /\ Forall has_range [some_array; some_array] /\
  Forall has_range (map coordinates [Some some_array; None; None]) /\
  exists s h2, (let '(w, h1) := ufilled empty_heap some_mesh [some_array] [] in uToVTK 5 w h1) = Ok (h2, s) /\ length s = 980.
Proof.
  split; [intros a _; reflexivity|]. split; [repeat split; eexists; reflexivity|].
  split; [repeat constructor; eexists; reflexivity|]. split; [repeat constructor; eexists; reflexivity|].
  eexists _, _. vm_compute. split; reflexivity.
Qed.

(** [C46] A writer keeps the address of a node that is destroyed at the end of the call:
    after the first call of toVTK, on every later state of the writer (same root, any
    mesh and data whose arrays have entries) toVTK is undefined behaviour.  This holds for
    the three writers. *)
Lemma later_output_undefined_pf : forall (stack : nat) (h : heap) (m : umesh) (cell point : list darray),
  5 <= stack -> fresh h -> mesh_has_range m -> Forall has_range cell -> Forall has_range point ->
  (let '(w, h1) := ufilled h m cell point in exists h2 s, uToVTK stack w h1 = Ok (h2, s) /\
     forall stack' w' m', uroot w' = uroot w -> umesh_ w' = Some m' -> mesh_has_range m' ->
       Forall has_range (ucell w') -> Forall has_range (upoint w') -> uToVTK stack' w' h2 = UB) /\
  (forall whole extent x y z, Forall has_range (map coordinates [x; y; z]) ->
   let '(w, h1) := rfilled h whole extent x y z cell point in exists h2 s, rToVTK stack w h1 = Ok (h2, s) /\
     forall stack' w' e', rroot w' = rroot w -> rmesh_ w' = Some e' -> Forall has_range (rcoords w') ->
       Forall has_range (rcell w') -> Forall has_range (rpoint w') -> rToVTK stack' w' h2 = UB) /\
  (forall rank size base, no_nul base = true -> no_percent base = true ->
   let '(w, h1) := pfilled h m cell point in exists h2 s, pToVTK stack rank size w base h1 = Ok (h2, s) /\
     forall stack' w' m' base', uroot (pvtu w') = uroot (pvtu w) -> umesh_ (pvtu w') = Some m' -> mesh_has_range m' ->
       Forall has_range (ucell (pvtu w')) -> Forall has_range (upoint (pvtu w')) ->
       no_nul base' = true -> no_percent base' = true -> pToVTK stack' rank size w' base' h2 = UB).
Proof.
  intros stack h m cell point Hs F R Rc Rp. split; [|split].
  - destruct (ufilled_spec h m cell point F) as (h1 & w & -> & F1 & Em & <- & <- & Ho).
    destruct (uToVTK_first stack w h1 m _ Hs F1 Em R Rc Rp Ho eq_refl) as (h2 & t & E & D & F2 & Hlt & B & Ho2 & Hd).
    exists h2, (xml_line ++ text_of [] t). split; [exact E|]. intros stack' w' m' Ew Em' R' Rc' Rp'.
    eapply (uToVTK_again stack' w' h2 m' _ (hnext h1)); eauto; [rewrite Ew; exact Ho2|cbn; auto|].
    rewrite Ew. intros Q. rewrite <- Q in Ho. rewrite F1 in Ho by lia. discriminate.
  - intros whole extent x y z Rx.
    destruct (rfilled_spec h whole extent x y z cell point F) as (h1 & w & -> & F1 & Em & Ex & <- & <- & Ho). rewrite <- Ex in *.
    destruct (rToVTK_first stack w h1 whole extent _ Hs F1 Em Rx Rc Rp Ho eq_refl) as (h2 & t & E & D & F2 & Hlt & B & Ho2 & Hd).
    exists h2, (xml_line ++ text_of [] t). split; [exact E|]. intros stack' w' [whole' extent'] Ew Em' Rx' Rc' Rp'.
    eapply (rToVTK_again stack' w' h2 whole' extent' _ (hnext h1)); eauto; [rewrite Ew; exact Ho2|cbn; auto|].
    rewrite Ew. intros Q. rewrite <- Q in Ho. rewrite F1 in Ho by lia. discriminate.
  - intros rank size base Hb1 Hb2.
    destruct (pfilled_spec h m cell point F) as (h1 & w & -> & F1 & Em & <- & <- & Ho & Hp & Hne).
    destruct (pToVTK_first stack rank size w base h1 m (fun r => firstn 255 (full_name base r)) Hs F1 Em R Rc Rp Ho Hp Hne)
      as (h2 & t & E & D & F2 & Hlt & Ho2 & Hd). { intros r. apply piece_name_ok; assumption. }
    eexists h2, _. split; [exact E|]. intros stack' w' m' base' Ew Em' R' Rc' Rp' Hn' Hp'.
    eapply (pToVTK_again stack' rank size w' base' h2 m' _ (hnext h1)); eauto; [rewrite Ew; exact Ho2|cbn; auto| |apply piece_name_ok; assumption].
    rewrite Ew. intros Q. rewrite <- Q in Ho. rewrite F1 in Ho by lia. discriminate.
Qed.

(** [C46] Two calls in a row on one writer. *)
Lemma output_twice_refuted_pf : exists (h : heap) (m : umesh) (d : darray),
  fresh h /\ mesh_has_range m /\ has_range d /\
  let '(w, h1) := ufilled h m [d] [d] in
  exists h2 s, uToVTK 5 w h1 = Ok (h2, s) /\ forall stack, uToVTK stack w h2 = UB.
Proof.
  exists empty_heap, some_mesh, some_array. split; [intros a _; reflexivity|]. split; [repeat split; eexists; reflexivity|].
  split; [exact some_range|].
  assert (F : fresh empty_heap) by (intros a _; reflexivity).
  assert (R : mesh_has_range some_mesh) by (repeat split; eexists; reflexivity).
  assert (R1 : Forall has_range [some_array]) by (constructor; [exact some_range|constructor]).
  destruct (later_output_undefined_pf 5 empty_heap some_mesh [some_array] [some_array] ltac:(lia) F R R1 R1) as (H & _ & _).
  destruct (ufilled_spec empty_heap some_mesh [some_array] [some_array] F) as (h1 & w & E & _ & Em & Ec & Ep & _). rewrite E in *.
  destruct H as (h2 & s & E2 & H). exists h2, s. split; [exact E2|]. intros stack.
  apply (H stack w some_mesh); auto; congruence.
Qed.

(** [C46] A mesh without cells on a rank (no entries in the arrays): the first call is
    already undefined, since the range of an array without entries is asked for. *)
Lemma output_without_cells_refuted_pf : exists (h : heap) (m : umesh),
  fresh h /\ um_points m = vector_array (txt "Float32") (txt "Points") (txt "3") [] [] [] /\
  let '(w, h1) := ufilled h m [] [] in forall stack, uToVTK stack w h1 = UB.
Proof.
  set (d := vector_array (txt "Float32") (txt "Points") (txt "3") [] [] []).
  exists empty_heap, (UMesh (txt "0") (txt "0") d d d d). split; [intros a _; reflexivity|]. split; [reflexivity|].
  intros stack. reflexivity.
Qed.

Record mcall : Type := MCall { mc_mesh : umesh; mc_fns : list darray; mc_base : text; mc_number : option nat }.
Definition mcall_ok (c : mcall) : Prop :=
  mesh_has_range (mc_mesh c) /\ Forall has_range (mc_fns c) /\ no_nul (mc_base c) = true /\ no_percent (mc_base c) = true.
Lemma pad4_chars n : no_nul (pad4 n) = true /\ no_percent (pad4 n) = true.
Proof.
  unfold no_nul, no_percent, pad4, decimal. rewrite !forallb_app.
  assert (A : forall k P, P "0"%char = true -> forallb P (repeat "0"%char k) = true) by (intros k P H; induction k; cbn; [reflexivity|]; rewrite H; assumption).
  rewrite !A by reflexivity. cbn [andb]. split; induction (Nat.to_uint n); cbn; auto.
Qed.
Lemma forallb_firstn {A} (P : A -> bool) k l : forallb P l = true -> forallb P (firstn k l) = true.
Proof. revert k; induction l as [|x l IH]; intros [|k]; cbn; auto. rewrite !andb_true_iff. intros []; auto. Qed.
Lemma mesh_name_chars base number : no_nul base = true -> no_percent base = true ->
  no_nul (mesh_name base number) = true /\ no_percent (mesh_name base number) = true.
Proof.
  unfold no_nul, no_percent, mesh_name. intros H1 H2. rewrite !forallb_app, H1, H2. destruct number as [n|]; [|auto].
  destruct (pad4_chars n). rewrite !forallb_app. unfold no_nul, no_percent in *. rewrite !forallb_firstn by assumption. auto.
Qed.

Lemma mToVTK_ok stack rank size c h : 5 <= stack -> fresh h -> mcall_ok c ->
  exists h' files, mToVTK stack rank size (mc_mesh c) (mc_fns c) (mc_base c) (mc_number c) h = Ok (h', files) /\ fresh h' /\
    exists f rest, files = f :: rest /\ file_of (describes_mesh (mc_mesh c) (mc_fns c) []) (snd f) /\
      (rank = 0 -> exists g names, rest = [g] /\ length names = size /\
         file_of (eq (pvtu_tree (mc_mesh c) (mc_fns c) [] names)) (snd g)).
Proof.
  intros Hs F (R & Rf & Hn & Hp). destruct (mesh_name_chars (mc_base c) (mc_number c) Hn Hp) as [Hn' Hp'].
  destruct (pfilled_spec h (mc_mesh c) (mc_fns c) [] F) as (h1 & w & E & F1 & Em & Ec & Ept & Ho & Hpr & Hne).
  unfold mToVTK. unfold pfilled in E. destruct (new_pwriter h) as [w0 h0]. cbn [fold_left] in E. injection E as E <-.
  cbn zeta. rewrite E. rewrite <- Ec in Rf.
  assert (Rp : Forall has_range (upoint (pvtu w))) by (rewrite Ept; constructor).
  destruct (pToVTK_first stack rank size w (mesh_name (mc_base c) (mc_number c)) h0 (mc_mesh c)
    (fun r => firstn 255 (full_name (mesh_name (mc_base c) (mc_number c)) r)) Hs F1 Em R Rf Rp Ho Hpr Hne)
    as (h2 & t & E2 & D & F2 & _). { intros r. apply piece_name_ok; assumption. }
  rewrite E2, bind_Ok. eexists _, _. split; [reflexivity|]. split; [apply (hfree_fresh [_; _]), F2|].
  rewrite Ec, Ept in *. eexists _, _. split; [reflexivity|]. split; [exists t; split; [exact D|apply written_document]|].
  intros ->. cbn [Nat.eqb]. eexists _, (map _ (seq 0 size)). split; [reflexivity|]. split; [rewrite map_length, seq_length; reflexivity|].
  eexists. split; [reflexivity|apply written_document].
Qed.

(** [C46] Mesh::toVTK makes a new writer for every call: every sequence of calls, each
    with its own mesh, functions, base name and number, writes complete files. *)
Lemma mesh_output_many_times_pf : forall (stack rank size : nat) (h : heap) (calls : list mcall),
  5 <= stack -> fresh h -> Forall mcall_ok calls ->
  exists h' outs,
    foldM (fun st c => '(h', files) <- mToVTK stack rank size (mc_mesh c) (mc_fns c) (mc_base c) (mc_number c) (fst st) ;;
                       Ok (h', snd st ++ [files])) calls (h, []) = Ok (h', outs) /\
    Forall2 (fun c files => exists f rest, files = f :: rest /\ file_of (describes_mesh (mc_mesh c) (mc_fns c) []) (snd f) /\
      (rank = 0 -> exists g names, rest = [g] /\ length names = size /\
         file_of (eq (pvtu_tree (mc_mesh c) (mc_fns c) [] names)) (snd g))) calls outs.
Proof.
  intros stack rank size h calls Hs F FC.
  match goal with |- context [Forall2 ?R _ _] => set (Q := R) end.
  match goal with |- context [foldM ?f _ _] => set (step := f) end.
  assert (G : forall calls h acc, fresh h -> Forall mcall_ok calls -> exists h' outs,
    foldM step calls (h, acc) = Ok (h', acc ++ outs) /\ Forall2 Q calls outs).
  { clear h F calls FC. induction calls as [|c calls IH]; intros h acc F FC.
    - exists h, []. cbn [foldM]. rewrite app_nil_r. split; [reflexivity|constructor].
    - inversion FC as [|? ? Hc FC']; subst. destruct (mToVTK_ok stack rank size c h Hs F Hc) as (h1 & files & E & F1 & X).
      cbn [foldM]. unfold step at 1. cbn [fst snd]. rewrite E, !bind_Ok.
      destruct (IH h1 (acc ++ [files]) F1 FC') as (h' & outs & E' & F2). exists h', (files :: outs).
      rewrite <- app_assoc in E'. split; [exact E'|]. constructor; assumption. }
  exact (G calls h [] F FC).
Qed.
Lemma mcall_example_expf : mcall_ok (MCall some_mesh [some_array] (txt "output") (Some 12)).
Proof. repeat split; try (eexists; reflexivity); repeat constructor; eexists; reflexivity. Qed.

(** ** Pieces *)

Lemma uint_length u : length (uint_text u) = Decimal.nb_digits u.
Proof. induction u; cbn; auto. Qed.
Lemma pad4_length n : length (pad4 n) = Nat.max 4 (Decimal.nb_digits (Nat.to_uint n)).
Proof. unfold pad4, decimal. rewrite app_length, repeat_length, uint_length. lia. Qed.
Lemma full_name_length base r : length (full_name base r) = length base + Nat.max 4 (Decimal.nb_digits (Nat.to_uint r)) + 5.
Proof. unfold full_name. rewrite !app_length, pad4_length. change (length (txt "_")) with 1. change (length (txt ".vtu")) with 4. lia. Qed.

(** [C47] For every number of ranks, every base name without percent sign and NUL whose file
    names fit in the buffer, every mesh and data of the ranks: every rank writes its file,
    the names are different, and the header of rank 0 has exactly these names as sources of
    the pieces, in order of ranks.  Missing: other base names, ranks without cells. *)
Lemma pieces_are_files_partial_pf : forall (stack size : nat) (base : text) (mesh : nat -> umesh) (cell point : nat -> list darray) (h : nat -> heap),
  5 <= stack -> no_percent base = true -> no_nul base = true -> names_fit base size ->
  (forall r, r < size -> fresh (h r) /\ mesh_has_range (mesh r) /\ Forall has_range (cell r) /\ Forall has_range (point r)) ->
  exists names, length names = size /\ NoDup ((base ++ txt ".pvtu") :: names) /\
  forall r, r < size ->
    let '(w, h1) := pfilled (h r) (mesh r) (cell r) (point r) in
    exists h2 f rest, pToVTK stack r size w base h1 = Ok (h2, f :: rest) /\
      Some (fst f) = nth_error names r /\ file_of (describes_mesh (mesh r) (cell r) (point r)) (snd f) /\
      (r <> 0 -> rest = []) /\
      (r = 0 -> exists s, rest = [(base ++ txt ".pvtu", s)] /\
         file_of (eq (pvtu_tree (mesh 0) (cell 0) (point 0) names)) s).
Proof.
  intros stack size base mesh cell point h Hs Hp Hn Hfit H.
  set (nf := fun r => firstn 255 (full_name base r)).
  assert (Hnf : forall r, r < size -> nf r = full_name base r).
  { intros r Hr. unfold nf. apply firstn_all2. rewrite full_name_length. specialize (Hfit r Hr). 
    replace 255 with (256 - 1) by reflexivity. apply Nat.le_add_le_sub_r. etransitivity; [|exact Hfit].
    rewrite <- Nat.add_assoc. apply Nat.add_le_mono_l. reflexivity. }
  exists (map nf (seq 0 size)). split; [rewrite map_length, seq_length; reflexivity|]. split.
  - constructor.
    + intros Hin. apply in_map_iff in Hin as (r & E & Hr). apply in_seq in Hr. rewrite Hnf in E by lia.
      unfold full_name in E. apply app_inv_head in E. discriminate.
    + assert (G : forall l, (forall r, In r l -> r < size) -> NoDup l -> NoDup (map nf l)).
      { induction l as [|r l IH]; intros Hl Hd; cbn [map]; constructor.
        - intros Hin. apply in_map_iff in Hin as (r' & E & Hr'). inversion Hd; subst.
          rewrite !Hnf in E by (apply Hl; cbn; auto). apply full_name_inj in E. subst. contradiction.
        - inversion Hd; subst. apply IH; auto. intros; apply Hl; cbn; auto. }
      apply G; [intros r Hr; apply in_seq in Hr; lia|apply seq_NoDup].
  - intros r Hr. destruct (H r Hr) as (F & R & Rc & Rp).
    destruct (pfilled_spec (h r) (mesh r) (cell r) (point r) F) as (h1 & w & -> & F1 & Em & Ec & Ep & Ho & Hpr & Hne).
    rewrite <- Ec in Rc. rewrite <- Ep in Rp.
    destruct (pToVTK_first stack r size w base h1 (mesh r) nf Hs F1 Em R Rc Rp Ho Hpr Hne) as (h2 & t & E & D & F2 & _).
    { intros r'. apply piece_name_ok; assumption. }
    rewrite Ec, Ep in *. eexists h2, _, _. split; [exact E|]. split; [|split; [|split]].
    + cbn [fst]. symmetry. rewrite (map_nth_error nf r (seq 0 size) (d := r)); [reflexivity|].
      rewrite nth_error_nth' with (d := 0) by (rewrite seq_length; exact Hr). rewrite seq_nth by exact Hr. reflexivity.
    + exists t. split; [exact D|apply written_document].
    + intros Hr0. destruct (Nat.eqb_spec r 0); [contradiction|reflexivity].
    + intros ->. cbn [Nat.eqb]. eexists. split; [reflexivity|]. eexists. split; [reflexivity|apply written_document].
Qed.
Lemma names_fit_example_expf : names_fit (txt "poisson-mesh") 64 /\ no_percent (txt "poisson-mesh") = true /\ no_nul (txt "poisson-mesh") = true.
Proof.
  split; [|split; reflexivity]. intros r Hr. do 64 (destruct r as [|r]; [vm_compute; lia|]). lia.
Qed.

Lemma printf_doubled base s args : printf (doubled base ++ s) args = (t <- printf s args ;; Ok (base ++ t)).
Proof.
  induction base as [|c base IH]; cbn [doubled app].
  - destruct (printf s args); reflexivity.
  - destruct (Ascii.eqb_spec c "%"%char) as [->|N].
    + cbn [app]. change (printf ("%"%char :: "%"%char :: doubled base ++ s) args) with (t <- printf (doubled base ++ s) args ;; Ok ("%"%char :: t)).
      rewrite IH. destruct (printf s args); reflexivity.
    + cbn [app]. rewrite printf_char by (apply Ascii.eqb_neq; exact N). rewrite IH. destruct (printf s args); reflexivity.
Qed.
Lemma doubled_nul base : no_nul base = true -> no_nul (doubled base) = true.
Proof.
  unfold no_nul. induction base as [|c base IH]; cbn [doubled forallb]; [auto|]. intros H. apply andb_true_iff in H as (A & B).
  destruct (Ascii.eqb c "%"%char); cbn [forallb]; rewrite A, ?IH by exact B; reflexivity.
Qed.
Lemma piece_name_doubled base r : no_nul base = true -> piece_name (doubled base) r = Ok (firstn 255 (full_name base r)).
Proof.
  intros Hn. unfold piece_name. rewrite c_str_id by (rewrite no_nul_app, doubled_nul by exact Hn; reflexivity). rewrite printf_doubled.
  change (printf (txt "_%04i.vtu") [r]) with (Ok (A:=text) (txt "_" ++ pad4 r ++ txt ".vtu")). rewrite !bind_Ok.
  rewrite c_str_id; [reflexivity|]. apply no_nul_firstn. rewrite !no_nul_app, Hn. unfold pad4.
  rewrite no_nul_app, repeat0_no_nul. unfold decimal. rewrite uint_no_nul. reflexivity.
Qed.

(** [C47] Percent signs can be written twice in the base name.  Then the files of the ranks have single ones, and so do the
    sources in the header; the name of the header keeps both.  Missing: ranks without cells. *)
Lemma doubled_percent_partial_pf : forall (stack size : nat) (base : text) (mesh : nat -> umesh) (cell point : nat -> list darray) (h : nat -> heap),
  5 <= stack -> no_nul base = true -> names_fit base size ->
  (forall r, r < size -> fresh (h r) /\ mesh_has_range (mesh r) /\ Forall has_range (cell r) /\ Forall has_range (point r)) ->
  exists names, length names = size /\ NoDup names /\ (forall nm, In nm names -> exists tail, nm = base ++ txt "_" ++ tail) /\
  forall r, r < size ->
    let '(w, h1) := pfilled (h r) (mesh r) (cell r) (point r) in
    exists h2 f rest, pToVTK stack r size w (doubled base) h1 = Ok (h2, f :: rest) /\
      Some (fst f) = nth_error names r /\ file_of (describes_mesh (mesh r) (cell r) (point r)) (snd f) /\
      (r <> 0 -> rest = []) /\
      (r = 0 -> exists s, rest = [(doubled base ++ txt ".pvtu", s)] /\
         file_of (eq (pvtu_tree (mesh 0) (cell 0) (point 0) names)) s).
Proof.
  intros stack size base mesh cell point h Hs Hn Hfit H.
  set (nf := fun r => firstn 255 (full_name base r)).
  assert (Hnf : forall r, r < size -> nf r = full_name base r).
  { intros r Hr. unfold nf. apply firstn_all2. rewrite full_name_length. specialize (Hfit r Hr).
    replace 255 with (256 - 1) by reflexivity. apply Nat.le_add_le_sub_r. etransitivity; [|exact Hfit].
    rewrite <- Nat.add_assoc. apply Nat.add_le_mono_l. reflexivity. }
  exists (map nf (seq 0 size)). split; [rewrite map_length, seq_length; reflexivity|]. split; [|split].
  - assert (G : forall l, (forall r, In r l -> r < size) -> NoDup l -> NoDup (map nf l)).
    { induction l as [|r l IH]; intros Hl Hd; cbn [map]; constructor.
      - intros Hin. apply in_map_iff in Hin as (r' & E & Hr'). inversion Hd; subst.
        rewrite !Hnf in E by (apply Hl; cbn; auto). apply full_name_inj in E. subst. contradiction.
      - inversion Hd; subst. apply IH; auto. intros; apply Hl; cbn; auto. }
    apply G; [intros r Hr; apply in_seq in Hr; lia|apply seq_NoDup].
  - intros nm Hin. apply in_map_iff in Hin as (r & <- & Hr). apply in_seq in Hr. rewrite Hnf by lia. eexists. reflexivity.
  - intros r Hr. destruct (H r Hr) as (F & R & Rc & Rp).
    destruct (pfilled_spec (h r) (mesh r) (cell r) (point r) F) as (h1 & w & -> & F1 & Em & Ec & Ep & Ho & Hpr & Hne).
    rewrite <- Ec in Rc. rewrite <- Ep in Rp.
    destruct (pToVTK_first stack r size w (doubled base) h1 (mesh r) nf Hs F1 Em R Rc Rp Ho Hpr Hne) as (h2 & t & E & D & F2 & _).
    { intros r'. apply piece_name_doubled; assumption. }
    rewrite Ec, Ep in *. eexists h2, _, _. split; [exact E|]. split; [|split; [|split]].
    + cbn [fst]. symmetry. rewrite (map_nth_error nf r (seq 0 size) (d := r)); [reflexivity|].
      rewrite nth_error_nth' with (d := 0) by (rewrite seq_length; exact Hr). rewrite seq_nth by exact Hr. reflexivity.
    + exists t. split; [exact D|apply written_document].
    + intros Hr0. destruct (Nat.eqb_spec r 0); [contradiction|reflexivity].
    + intros ->. cbn [Nat.eqb]. eexists. split; [reflexivity|]. eexists. split; [reflexivity|apply written_document].
Qed.
Lemma doubled_percent_example_expf : doubled (txt "error-50%") = txt "error-50%%" /\ no_nul (txt "error-50%") = true /\ names_fit (txt "error-50%") 4.
Proof.
  split; [reflexivity|]. split; [reflexivity|]. intros r Hr. do 4 (destruct r as [|r]; [vm_compute; lia|]). lia.
Qed.

(** [C47] A base name with a percent sign is used as a format: undefined behaviour on every rank. *)
Lemma percent_in_name_refuted_pf : exists base : text,
  no_nul base = true /\ names_fit base 4 /\
  forall stack rank size w h, pToVTK stack rank size w base h = UB.
Proof.
  exists (txt "error-50%"). split; [reflexivity|]. split.
  - intros r Hr. do 4 (destruct r as [|r]; [vm_compute; lia|]). lia.
  - intros stack rank size w h. reflexivity.
Qed.

(** [C47] A long base name: all ranks write the same file, and the header names it for all of them. *)
Lemma long_name_refuted_pf : exists base : text, no_nul base = true /\ no_percent base = true /\
  forall (stack rank size : nat) (h : heap) (m : umesh) (cell point : list darray),
  5 <= stack -> fresh h -> mesh_has_range m -> Forall has_range cell -> Forall has_range point ->
  let '(w, h1) := pfilled h m cell point in
  exists h2 s rest, pToVTK stack rank size w base h1 = Ok (h2, (base, s) :: rest).
Proof.
  exists (repeat "a"%char 255). split; [vm_compute; reflexivity|]. split; [vm_compute; reflexivity|].
  intros stack rank size h m cell point Hs F R Rc Rp. set (base := repeat "a"%char 255).
  destruct (pfilled_spec h m cell point F) as (h1 & w & -> & F1 & Em & <- & <- & Ho & Hpr & Hne).
  destruct (pToVTK_first stack rank size w base h1 m (fun r => firstn 255 (full_name base r)) Hs F1 Em R Rc Rp Ho Hpr Hne)
    as (h2 & t & E & _). { intros r. apply piece_name_ok; vm_compute; reflexivity. }
  assert (Q : firstn 255 (full_name base rank) = base).
  { unfold full_name. replace 255 with (length base) by (unfold base; rewrite repeat_length; reflexivity).
    rewrite firstn_app, Nat.sub_diag, firstn_all, firstn_O. apply app_nil_r. }
  cbn beta in E. rewrite Q in E. eexists h2, _, _. exact E.
Qed.
