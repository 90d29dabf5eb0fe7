(** Property theorems.  Proofs are in XmlProps.v; this file only restates the
    statements.  Written by tools/gen_thm.py. *)
From Coq Require Import Ascii String.
From Verif Require Import Base XmlModel XmlSpec.
From Verif Require Import XmlProofs VtkProofs.
From Verif Require Import XmlProps.

(** [C45] For every tree of nodes with XML names, different attribute names per node, and
    values and data that need no escapes: the written text can be read in exactly
    one way, and this gives the names, attributes, data (without surrounding white
    space) and children of the tree, in order.  Missing: other characters in names,
    values and data, which are written as they are. *)
Theorem written_xml_reads_back_partial : forall (stack : nat) (h : heap) (root : nat) (t : xtree),
  tree_at h root t -> height t <= stack -> plain t ->
  exists s, write stack h root = Ok s /\ holds_tree s t.
Proof. exact @written_xml_reads_back_partial_pf. Qed.
Print Assumptions written_xml_reads_back_partial.

Example xml_example : tree_at xml_example_heap 0 xml_example_tree /\ height xml_example_tree <= 3 /\ plain xml_example_tree.
Proof. exact @xml_example_expf. Qed.

(** [C45] Nothing is escaped: a tree whose text is not well-formed, and a tree whose text
    is well-formed but is read as a tree with another attribute. *)
Theorem written_xml_reads_back_refuted :
  (exists h root t s, tree_at h root t /\ (forall stack, 1 <= stack -> write stack h root = Ok s) /\ forall e, ~ document s e) /\
  (exists h root t t' s, tree_at h root t /\ (forall stack, 1 <= stack -> write stack h root = Ok s) /\
     holds_tree s t' /\ trimmed t' <> trimmed t /\ ~ holds_tree s t).
Proof. exact @written_xml_reads_back_refuted_pf. Qed.
Print Assumptions written_xml_reads_back_refuted.

(** [C46] The first call on a new writer of an unstructured grid, for every mesh and data
    whose arrays have entries: the file describes the mesh and the data.  Missing:
    further calls on the same writer, arrays without entries. *)
Theorem first_unstructured_output_partial : forall (stack : nat) (h : heap) (m : umesh) (cell point : list darray),
  5 <= stack -> fresh h -> mesh_has_range m -> Forall has_range cell -> Forall has_range point ->
  let '(w, h1) := ufilled h m cell point in
  exists h2 s, uToVTK stack w h1 = Ok (h2, s) /\ fresh h2 /\ file_of (describes_mesh m cell point) s.
Proof. exact @first_unstructured_output_partial_pf. Qed.
Print Assumptions first_unstructured_output_partial.

(** [C46] The same for rectilinear grids. *)
Theorem first_rectilinear_output_partial : forall (stack : nat) (h : heap) (whole extent : text) (x y z : option darray) (cell point : list darray),
  5 <= stack -> fresh h -> Forall has_range (map coordinates [x; y; z]) -> Forall has_range cell -> Forall has_range point ->
  let '(w, h1) := rfilled h whole extent x y z cell point in
  exists h2 s, rToVTK stack w h1 = Ok (h2, s) /\ fresh h2 /\
    file_of (describes_grid whole extent (map coordinates [x; y; z]) cell point) s.
Proof. exact @first_rectilinear_output_partial_pf. Qed.
Print Assumptions first_rectilinear_output_partial.

(** [C46] An unstructured writer that is given its mesh, or another mesh, after the data:
    the file describes the last mesh and all the data. *)
Theorem unstructured_last_mesh_partial : forall (stack : nat) (h : heap) (m m' : umesh) (cell point : list darray),
  5 <= stack -> fresh h -> mesh_has_range m -> Forall has_range cell -> Forall has_range point ->
  (let '(w, h1) := ufilled h m' cell point in
   exists h2 s, uToVTK stack (ubuildMesh w m) h1 = Ok (h2, s) /\ file_of (describes_mesh m cell point) s) /\
  (let '(w, h1) := new_uwriter h in
   exists h2 s, uToVTK stack (ubuildMesh (fold_left uaddPointData point (fold_left uaddCellData cell w)) m) h1 = Ok (h2, s) /\
     file_of (describes_mesh m cell point) s).
Proof. exact @unstructured_last_mesh_partial_pf. Qed.
Print Assumptions unstructured_last_mesh_partial.

(** [C46] A rectilinear writer that is given a second mesh before the output: the file has the extent of the second mesh,
    but the coordinates of the first mesh and then those of the second. *)
Theorem rectilinear_second_mesh_partial : forall (stack : nat) (h : heap) (whole extent whole' extent' : text)
  (x y z x' y' z' : option darray) (cell point : list darray),
  5 <= stack -> fresh h -> Forall has_range (map coordinates [x; y; z; x'; y'; z']) -> Forall has_range cell -> Forall has_range point ->
  let '(w, h1) := rfilled h whole extent x y z cell point in
  exists h2 s, rToVTK stack (rbuildMesh w whole' extent' x' y' z') h1 = Ok (h2, s) /\
    file_of (describes_grid whole' extent' (map coordinates [x; y; z] ++ map coordinates [x'; y'; z']) cell point) s.
Proof. exact @rectilinear_second_mesh_partial_pf. Qed.
Print Assumptions rectilinear_second_mesh_partial.

Example output_example : fresh empty_heap /\ mesh_has_range some_mesh /\ Forall has_range [some_array; some_array] /\
  Forall has_range (map coordinates [Some some_array; None; None]) /\
  exists s h2, (let '(w, h1) := ufilled empty_heap some_mesh [some_array] [] in uToVTK 5 w h1) = Ok (h2, s) /\ length s = 980.
Proof. exact @output_example_expf. Qed.

(** [C46] A writer keeps the address of a node that is destroyed at the end of the call:
    after the first call of toVTK, on every later state of the writer (same root, any
    mesh and data whose arrays have entries) toVTK is undefined behaviour.  This holds for
    the three writers. *)
Theorem later_output_undefined : forall (stack : nat) (h : heap) (m : umesh) (cell point : list darray),
  5 <= stack -> fresh h -> mesh_has_range m -> Forall has_range cell -> Forall has_range point ->
  (let '(w, h1) := ufilled h m cell point in exists h2 s, uToVTK stack w h1 = Ok (h2, s) /\
     forall stack' w' m', uroot w' = uroot w -> umesh_ w' = Some m' -> mesh_has_range m' ->
       Forall has_range (ucell w') -> Forall has_range (upoint w') -> uToVTK stack' w' h2 = UB) /\
  (forall whole extent x y z, Forall has_range (map coordinates [x; y; z]) ->
   let '(w, h1) := rfilled h whole extent x y z cell point in exists h2 s, rToVTK stack w h1 = Ok (h2, s) /\
     forall stack' w' e', rroot w' = rroot w -> rmesh_ w' = Some e' -> Forall has_range (rcoords w') ->
       Forall has_range (rcell w') -> Forall has_range (rpoint w') -> rToVTK stack' w' h2 = UB) /\
  (forall rank size base, no_nul base = true -> no_percent base = true ->
   let '(w, h1) := pfilled h m cell point in exists h2 s, pToVTK stack rank size w base h1 = Ok (h2, s) /\
     forall stack' w' m' base', uroot (pvtu w') = uroot (pvtu w) -> umesh_ (pvtu w') = Some m' -> mesh_has_range m' ->
       Forall has_range (ucell (pvtu w')) -> Forall has_range (upoint (pvtu w')) ->
       no_nul base' = true -> no_percent base' = true -> pToVTK stack' rank size w' base' h2 = UB).
Proof. exact @later_output_undefined_pf. Qed.
Print Assumptions later_output_undefined.

(** [C46] Two calls in a row on one writer. *)
Theorem output_twice_refuted : exists (h : heap) (m : umesh) (d : darray),
  fresh h /\ mesh_has_range m /\ has_range d /\
  let '(w, h1) := ufilled h m [d] [d] in
  exists h2 s, uToVTK 5 w h1 = Ok (h2, s) /\ forall stack, uToVTK stack w h2 = UB.
Proof. exact @output_twice_refuted_pf. Qed.
Print Assumptions output_twice_refuted.

(** [C46] A mesh without cells on a rank (no entries in the arrays): the first call is
    already undefined, since the range of an array without entries is asked for. *)
Theorem output_without_cells_refuted : exists (h : heap) (m : umesh),
  fresh h /\ um_points m = vector_array (txt "Float32") (txt "Points") (txt "3") [] [] [] /\
  let '(w, h1) := ufilled h m [] [] in forall stack, uToVTK stack w h1 = UB.
Proof. exact @output_without_cells_refuted_pf. Qed.
Print Assumptions output_without_cells_refuted.

(** [C46] Mesh::toVTK makes a new writer for every call: every sequence of calls, each
    with its own mesh, functions, base name and number, writes complete files. *)
Theorem mesh_output_many_times : forall (stack rank size : nat) (h : heap) (calls : list mcall),
  5 <= stack -> fresh h -> Forall mcall_ok calls ->
  exists h' outs,
    foldM (fun st c => '(h', files) <- mToVTK stack rank size (mc_mesh c) (mc_fns c) (mc_base c) (mc_number c) (fst st) ;;
                       Ok (h', snd st ++ [files])) calls (h, []) = Ok (h', outs) /\
    Forall2 (fun c files => exists f rest, files = f :: rest /\ file_of (describes_mesh (mc_mesh c) (mc_fns c) []) (snd f) /\
      (rank = 0 -> exists g names, rest = [g] /\ length names = size /\
         file_of (eq (pvtu_tree (mc_mesh c) (mc_fns c) [] names)) (snd g))) calls outs.
Proof. exact @mesh_output_many_times_pf. Qed.
Print Assumptions mesh_output_many_times.

Example mcall_example : mcall_ok (MCall some_mesh [some_array] (txt "output") (Some 12)).
Proof. exact @mcall_example_expf. Qed.

(** [C47] For every number of ranks, every base name without percent sign and NUL whose file
    names fit in the buffer, every mesh and data of the ranks: every rank writes its file,
    the names are different, and the header of rank 0 has exactly these names as sources of
    the pieces, in order of ranks.  Missing: other base names, ranks without cells. *)
Theorem pieces_are_files_partial : forall (stack size : nat) (base : text) (mesh : nat -> umesh) (cell point : nat -> list darray) (h : nat -> heap),
  5 <= stack -> no_percent base = true -> no_nul base = true -> names_fit base size ->
  (forall r, r < size -> fresh (h r) /\ mesh_has_range (mesh r) /\ Forall has_range (cell r) /\ Forall has_range (point r)) ->
  exists names, length names = size /\ NoDup ((base ++ txt ".pvtu") :: names) /\
  forall r, r < size ->
    let '(w, h1) := pfilled (h r) (mesh r) (cell r) (point r) in
    exists h2 f rest, pToVTK stack r size w base h1 = Ok (h2, f :: rest) /\
      Some (fst f) = nth_error names r /\ file_of (describes_mesh (mesh r) (cell r) (point r)) (snd f) /\
      (r <> 0 -> rest = []) /\
      (r = 0 -> exists s, rest = [(base ++ txt ".pvtu", s)] /\
         file_of (eq (pvtu_tree (mesh 0) (cell 0) (point 0) names)) s).
Proof. exact @pieces_are_files_partial_pf. Qed.
Print Assumptions pieces_are_files_partial.

Example names_fit_example : names_fit (txt "poisson-mesh") 64 /\ no_percent (txt "poisson-mesh") = true /\ no_nul (txt "poisson-mesh") = true.
Proof. exact @names_fit_example_expf. Qed.

(** [C47] Percent signs can be written twice in the base name.  Then the files of the ranks have single ones, and so do the
    sources in the header; the name of the header keeps both.  Missing: ranks without cells. *)
Theorem doubled_percent_partial : forall (stack size : nat) (base : text) (mesh : nat -> umesh) (cell point : nat -> list darray) (h : nat -> heap),
  5 <= stack -> no_nul base = true -> names_fit base size ->
  (forall r, r < size -> fresh (h r) /\ mesh_has_range (mesh r) /\ Forall has_range (cell r) /\ Forall has_range (point r)) ->
  exists names, length names = size /\ NoDup names /\ (forall nm, In nm names -> exists tail, nm = base ++ txt "_" ++ tail) /\
  forall r, r < size ->
    let '(w, h1) := pfilled (h r) (mesh r) (cell r) (point r) in
    exists h2 f rest, pToVTK stack r size w (doubled base) h1 = Ok (h2, f :: rest) /\
      Some (fst f) = nth_error names r /\ file_of (describes_mesh (mesh r) (cell r) (point r)) (snd f) /\
      (r <> 0 -> rest = []) /\
      (r = 0 -> exists s, rest = [(doubled base ++ txt ".pvtu", s)] /\
         file_of (eq (pvtu_tree (mesh 0) (cell 0) (point 0) names)) s).
Proof. exact @doubled_percent_partial_pf. Qed.
Print Assumptions doubled_percent_partial.

Example doubled_percent_example : doubled (txt "error-50%") = txt "error-50%%" /\ no_nul (txt "error-50%") = true /\ names_fit (txt "error-50%") 4.
Proof. exact @doubled_percent_example_expf. Qed.

(** [C47] A base name with a percent sign is used as a format: undefined behaviour on every rank. *)
Theorem percent_in_name_refuted : exists base : text,
  no_nul base = true /\ names_fit base 4 /\
  forall stack rank size w h, pToVTK stack rank size w base h = UB.
Proof. exact @percent_in_name_refuted_pf. Qed.
Print Assumptions percent_in_name_refuted.

(** [C47] A long base name: all ranks write the same file, and the header names it for all of them. *)
Theorem long_name_refuted : exists base : text, no_nul base = true /\ no_percent base = true /\
  forall (stack rank size : nat) (h : heap) (m : umesh) (cell point : list darray),
  5 <= stack -> fresh h -> mesh_has_range m -> Forall has_range cell -> Forall has_range point ->
  let '(w, h1) := pfilled h m cell point in
  exists h2 s rest, pToVTK stack rank size w base h1 = Ok (h2, (base, s) :: rest).
Proof. exact @long_name_refuted_pf. Qed.
Print Assumptions long_name_refuted.
