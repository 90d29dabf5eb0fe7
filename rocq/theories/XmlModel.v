(** Model of src/XMLTree.cpp and src/VTK.cpp: nodes connected by pointers, writing them
    as text, the three writers of VTK files.

    Simplifications: characters are bytes; a file that cannot be opened is not modelled
    (the text is returned as the content of the file).  Addresses are never used
    again; by the C++ standard a pointer to an object whose storage was released must
    not be dereferenced, also if a new object is put in the same place.  The depth of
    recursion of write_ is limited by a parameter [stack]; deeper recursion is undefined
    behaviour (the stack overflows). *)
From Coq Require Import Ascii String.
From Coq Require Decimal.
From Verif Require Import Base.

Definition text := list ascii.
Definition txt (s : string) : text := list_ascii_of_string s.
Definition newline : ascii := "010"%char.
Definition quote : ascii := """"%char.

(** ** Nodes (XMLTree.hpp:28-89) *)
Record xobj : Type := XObj { xname : text; xattrs : list (text * text); xdata : text; xchildren : list nat }.
Record heap : Type := Heap { hnext : nat; hobj : nat -> option xobj }.
Definition empty_heap : heap := Heap 0 (fun _ => None).
Definition hset (h : heap) (a : nat) (o : option xobj) : heap :=
  Heap (hnext h) (fun b => if Nat.eqb a b then o else hobj h b).
(** A new object (automatic, member or from operator new). *)
Definition hnew (h : heap) (o : xobj) : nat * heap := (hnext h, hset (Heap (S (hnext h)) (hobj h)) (hnext h) (Some o)).
(** The end of the lifetime of an object. *)
Definition hfree (h : heap) (a : nat) : heap := hset h a None.

(** XMLTree.cpp:9-11, 13-15: an object with a name and attributes added one by one. *)
Definition xnode (name : text) (attrs : list (text * text)) : xobj := XObj name attrs [] [].
(** XMLTree.cpp:17-23 addChild; called on live objects only, but checked. *)
Definition addChild (h : heap) (a c : nat) : res heap :=
  match hobj h a with
  | Some o => Ok (hset h a (Some (XObj (xname o) (xattrs o) (xdata o) (xchildren o ++ [c]))))
  | None => UB
  end.

(** ** Writing *)

(** XMLTree.cpp:44-50: the line with the opening tag. *)
Definition header (prefix : text) (o : xobj) : text :=
  removelast (prefix ++ txt "<" ++ xname o ++ txt " " ++
    flat_map (fun a => fst a ++ txt "=" ++ [quote] ++ snd a ++ [quote] ++ txt " ") (xattrs o)) ++ txt ">".

(** XMLTree.cpp:41-67 write_: the text appended to the file. *)
Fixpoint write_ (stack : nat) (h : heap) (a : nat) (prefix : text) : res text :=
  match stack with
  | O => UB
  | S stack' =>
      match hobj h a with
      | None => UB
      | Some o =>
          ts <- mapM (fun c => write_ stack' h c (prefix ++ txt "  ")) (xchildren o) ;;
          Ok (header prefix o ++ [newline] ++
              match xdata o with [] => [] | _ => xdata o ++ [newline] end ++
              List.concat ts ++
              prefix ++ txt "</" ++ xname o ++ txt ">" ++ [newline])
      end
  end.
Definition xml_line : text := txt "<?xml version=" ++ [quote] ++ txt "1.0" ++ [quote] ++ txt "?>" ++ [newline].
(** XMLTree.cpp:33-39 write, on a tree made from an existing node. *)
Definition write (stack : nat) (h : heap) (root : nat) : res text :=
  t <- write_ stack h root [] ;; Ok (xml_line ++ t).

(** ** Data arrays *)

(** VTK.hpp:12-93: what the virtual functions return; the range of a vector without
    entries dereferences the end iterator (Vector.hpp:729-742). *)
Record darray : Type := DArray {
  da_type : text; da_name : text; da_components : text; da_format : text;
  da_min : res text; da_max : res text; da_data : text }.

(** Vector.hpp:684-753 for a vector whose entries print as [entries], the least and the
    greatest one as [mn] and [mx]. *)
Definition vector_array (type name components mn mx : text) (entries : list text) : darray :=
  DArray type name components (txt "ascii")
    (match entries with [] => UB | _ => Ok mn end) (match entries with [] => UB | _ => Ok mx end)
    (flat_map (fun e => e ++ txt " ") entries).
(** VTK.cpp:27-34 EmptyDataArrayNode. *)
Definition empty_array : darray :=
  DArray (txt "Float32") (txt "Empty") (txt "1") (txt "ascii") (Ok (txt "0.0")) (Ok (txt "0.0")) (txt "0.0").

(** VTK.cpp:5-15 toVTK: a new node (never deleted). *)
Definition array_node (d : darray) : res xobj :=
  mn <- da_min d ;; mx <- da_max d ;;
  Ok (XObj (txt "DataArray")
       [(txt "type", da_type d); (txt "Name", da_name d); (txt "NumberOfComponents", da_components d);
        (txt "format", da_format d); (txt "RangeMin", mn); (txt "RangeMax", mx)] (da_data d) []).
(** VTK.cpp:17-25 toPVTK. *)
Definition parray_node (d : darray) : res xobj :=
  Ok (xnode (txt "PDataArray")
       [(txt "type", da_type d); (txt "Name", da_name d); (txt "NumberOfComponents", da_components d);
        (txt "format", da_format d)]).

(** [parent.addChild(array.toVTK())] for all arrays. *)
Definition add_arrays (mk : darray -> res xobj) (h : heap) (parent : nat) (ds : list darray) : res heap :=
  foldM (fun h d => o <- mk d ;; let '(c, h1) := hnew h o in addChild h1 parent c) ds h.

(** The attribute Scalars, VTK.cpp:89-93 and others: names followed by spaces. *)
Definition scalars (ds : list darray) : list (text * text) :=
  match ds with [] => [] | _ => [(txt "Scalars", flat_map (fun d => da_name d ++ txt " ") ds)] end.

Definition file_attrs (type : string) : list (text * text) :=
  [(txt "type", txt type); (txt "version", txt "0.1"); (txt "byte_order", txt "LittleEndian")].

(** [if (!v.empty()) parent.addChild(node)] *)
Definition addChild_if {A} (l : list A) (h : heap) (a c : nat) : res heap :=
  match l with [] => Ok h | _ => addChild h a c end.

(** ** Unstructured grids *)

(** VTK.hpp:260-306, the mesh as seen by the writer at the time of the call. *)
Record umesh : Type := UMesh {
  um_npoints : text; um_ncells : text; um_points : darray; um_connectivity : darray; um_offsets : darray; um_types : darray }.
(** VTK.hpp:366-412.  The values of mesh and data are those at the time of a call. *)
Record uwriter : Type := UWriter { uroot : nat; umesh_ : option umesh; upoint : list darray; ucell : list darray }.

(** VTK.cpp:123-131: root_ is a member object. *)
Definition new_uwriter (h : heap) : uwriter * heap :=
  let '(r, h1) := hnew h (xnode (txt "VTKFile") (file_attrs "UnstructuredGrid")) in (UWriter r None [] [], h1).
(** VTK.cpp:145-158 buildMesh, addPointData, addCellData. *)
Definition ubuildMesh (w : uwriter) (m : umesh) : uwriter := UWriter (uroot w) (Some m) (upoint w) (ucell w).
Definition uaddPointData (w : uwriter) (d : darray) : uwriter := UWriter (uroot w) (umesh_ w) (upoint w ++ [d]) (ucell w).
Definition uaddCellData (w : uwriter) (d : darray) : uwriter := UWriter (uroot w) (umesh_ w) (upoint w) (ucell w ++ [d]).

(** VTK.cpp:160-208 toVTK: the content of the file.  The six nodes of the function are
    destroyed at its end; root_ keeps the address of the first one. *)
Definition uToVTK (stack : nat) (w : uwriter) (h : heap) : res (heap * text) :=
  match umesh_ w with
  | None => Throw invalid_argument
  | Some m =>
      let '(grid, h) := hnew h (xnode (txt "UnstructuredGrid") []) in
      let '(piece, h) := hnew h (xnode (txt "Piece")
           [(txt "NumberOfPoints", um_npoints m); (txt "NumberOfCells", um_ncells m)]) in
      let '(points, h) := hnew h (xnode (txt "Points") []) in
      let '(cells, h) := hnew h (xnode (txt "Cells") []) in
      let '(cell_data, h) := hnew h (xnode (txt "CellData") (scalars (ucell w))) in
      let '(point_data, h) := hnew h (xnode (txt "PointData") (scalars (upoint w))) in
      h <- addChild h (uroot w) grid ;;
      h <- addChild h grid piece ;;
      h <- addChild h piece points ;;
      h <- add_arrays array_node h points [um_points m] ;;
      h <- addChild h piece cells ;;
      h <- add_arrays array_node h cells [um_connectivity m; um_offsets m; um_types m] ;;
      h <- addChild_if (ucell w) h piece cell_data ;;
      h <- add_arrays array_node h cell_data (ucell w) ;;
      h <- addChild_if (upoint w) h piece point_data ;;
      h <- add_arrays array_node h point_data (upoint w) ;;
      t <- write stack h (uroot w) ;;
      Ok (fold_left hfree [grid; piece; points; cells; cell_data; point_data] h, t)
  end.

(** ** Rectilinear grids *)
Record rwriter : Type := RWriter {
  rroot : nat; rmesh_ : option (text * text); rcoords : list darray; rpoint : list darray; rcell : list darray }.
(** VTK.cpp:36-40. *)
Definition new_rwriter (h : heap) : rwriter * heap :=
  let '(r, h1) := hnew h (xnode (txt "VTKFile") (file_attrs "RectilinearGrid")) in (RWriter r None [] [] [], h1).
(** VTK.cpp:42-68 buildMesh: whole extent, extent, coordinates (none: the empty array). *)
Definition rbuildMesh (w : rwriter) (whole extent : text) (x y z : option darray) : rwriter :=
  let get o := match o with Some d => d | None => empty_array end in
  RWriter (rroot w) (Some (whole, extent)) (rcoords w ++ [get x; get y; get z]) (rpoint w) (rcell w).
Definition raddPointData (w : rwriter) (d : darray) : rwriter := RWriter (rroot w) (rmesh_ w) (rcoords w) (rpoint w ++ [d]) (rcell w).
Definition raddCellData (w : rwriter) (d : darray) : rwriter := RWriter (rroot w) (rmesh_ w) (rcoords w) (rpoint w) (rcell w ++ [d]).
(** VTK.cpp:78-121 toVTK. *)
Definition rToVTK (stack : nat) (w : rwriter) (h : heap) : res (heap * text) :=
  match rmesh_ w with
  | None => Throw invalid_argument
  | Some (whole, extent) =>
      let '(grid, h) := hnew h (xnode (txt "RectilinearGrid") [(txt "WholeExtent", whole)]) in
      let '(piece, h) := hnew h (xnode (txt "Piece") [(txt "Extent", extent)]) in
      let '(cell_data, h) := hnew h (xnode (txt "CellData") (scalars (rcell w))) in
      let '(point_data, h) := hnew h (xnode (txt "PointData") (scalars (rpoint w))) in
      let '(coords, h) := hnew h (xnode (txt "Coordinates") []) in
      h <- addChild h (rroot w) grid ;;
      h <- addChild h grid piece ;;
      h <- addChild_if (rcell w) h piece cell_data ;;
      h <- addChild_if (rpoint w) h piece point_data ;;
      h <- addChild h piece coords ;;
      h <- add_arrays array_node h cell_data (rcell w) ;;
      h <- add_arrays array_node h point_data (rpoint w) ;;
      h <- add_arrays array_node h coords (rcoords w) ;;
      t <- write stack h (rroot w) ;;
      Ok (fold_left hfree [grid; piece; cell_data; point_data; coords] h, t)
  end.

(** ** File names *)

(** What c_str hands over: the characters up to the first NUL. *)
Fixpoint c_str (s : text) : text :=
  match s with [] => [] | c :: s' => if Ascii.eqb c "000"%char then [] else c :: c_str s' end.

(** The decimal digits of a number. *)
Fixpoint uint_text (u : Decimal.uint) : text :=
  match u with
  | Decimal.Nil => []
  | Decimal.D0 u => "0"%char :: uint_text u | Decimal.D1 u => "1"%char :: uint_text u
  | Decimal.D2 u => "2"%char :: uint_text u | Decimal.D3 u => "3"%char :: uint_text u
  | Decimal.D4 u => "4"%char :: uint_text u | Decimal.D5 u => "5"%char :: uint_text u
  | Decimal.D6 u => "6"%char :: uint_text u | Decimal.D7 u => "7"%char :: uint_text u
  | Decimal.D8 u => "8"%char :: uint_text u | Decimal.D9 u => "9"%char :: uint_text u
  end.
Definition decimal (n : nat) : text := uint_text (Nat.to_uint n).
(** The conversion %04i for a number that is not negative. *)
Definition pad4 (n : nat) : text := repeat "0"%char (4 - List.length (decimal n)) ++ decimal n.

(** printf with one argument of type int, not negative.  Conversions other than %04i and
    %% are undefined here: with the formats of the program they either do not fit the
    argument or take it away from the conversion %04i at the end. *)
Fixpoint printf (fmt : text) (args : list nat) : res text :=
  match fmt with
  | [] => Ok []
  | "%"%char :: "%"%char :: fmt' => t <- printf fmt' args ;; Ok ("%"%char :: t)
  | "%"%char :: "0"%char :: "4"%char :: "i"%char :: fmt' =>
      match args with
      | n :: args' => t <- printf fmt' args' ;; Ok (pad4 n ++ t)
      | [] => UB
      end
  | "%"%char :: _ => UB
  | c :: fmt' => t <- printf fmt' args ;; Ok (c :: t)
  end.
(** VTK.cpp:242-244, 277-279: snprintf with a buffer of 256 characters, the last one NUL. *)
Definition piece_name (base : text) (rank : nat) : res text :=
  t <- printf (c_str (base ++ txt "_%04i.vtu")) [rank] ;; Ok (c_str (firstn 255 t)).

(** ** Parallel unstructured grids *)
Record pwriter : Type := PWriter { proot : nat; pvtu : uwriter }.
(** VTK.hpp:422, VTK.cpp:210-224. *)
Definition new_pwriter (h : heap) : pwriter * heap :=
  let '(u, h1) := new_uwriter h in
  let '(r, h2) := hnew h1 (xnode (txt "VTKFile") (file_attrs "UnstructuredGrid")) in (PWriter r u, h2).
Definition pbuildMesh (w : pwriter) (m : umesh) : pwriter := PWriter (proot w) (ubuildMesh (pvtu w) m).
Definition paddPointData (w : pwriter) (d : darray) : pwriter := PWriter (proot w) (uaddPointData (pvtu w) d).
Definition paddCellData (w : pwriter) (d : darray) : pwriter := PWriter (proot w) (uaddCellData (pvtu w) d).

(** VTK.cpp:275-283: one node per rank, in a vector. *)
Definition add_pieces (base : text) (size : nat) (h : heap) : res (list nat * heap) :=
  foldM (fun st i => nm <- piece_name base i ;;
           let '(a, h1) := hnew (snd st) (xnode (txt "Piece") [(txt "Source", nm)]) in Ok (fst st ++ [a], h1))
    (seq 0 size) ([], h).

(** VTK.cpp:238-301 toVTK on one rank: the files written with their contents. *)
Definition pToVTK (stack : nat) (rank size : nat) (w : pwriter) (base : text) (h : heap) : res (heap * list (text * text)) :=
  nm <- piece_name base rank ;;
  '(h, t) <- uToVTK stack (pvtu w) h ;;
  if Nat.eqb rank 0 then
    match umesh_ (pvtu w) with
    | None => UB
    | Some m =>
        let '(grid, h) := hnew h (xnode (txt "PUnstructuredGrid") [(txt "GhostLevel", txt "0")]) in
        let '(points, h) := hnew h (xnode (txt "PPoints") []) in
        let '(point_data, h) := hnew h (xnode (txt "PPointData") (scalars (upoint (pvtu w)))) in
        let '(cell_data, h) := hnew h (xnode (txt "PCellData") (scalars (ucell (pvtu w)))) in
        '(pieces, h) <- add_pieces base size h ;;
        h <- addChild h (proot w) grid ;;
        h <- addChild h grid points ;;
        h <- add_arrays parray_node h points [um_points m] ;;
        h <- addChild h grid point_data ;;
        h <- add_arrays parray_node h point_data (upoint (pvtu w)) ;;
        h <- addChild h grid cell_data ;;
        h <- add_arrays parray_node h cell_data (ucell (pvtu w)) ;;
        h <- foldM (fun h a => addChild h grid a) pieces h ;;
        t' <- write stack h (proot w) ;;
        Ok (fold_left hfree (grid :: points :: point_data :: cell_data :: pieces) h,
            [(nm, t); (base ++ txt ".pvtu", t')])
    end
  else Ok (h, [(nm, t)]).

(** Mesh.hpp:398-424 toVTK (the files of the mesh; those of the forest are written by
    p4est): a new writer for every call.  It is destroyed at the end. *)
Definition mesh_name (base : text) (number : option nat) : text :=
  base ++ txt "-mesh" ++ match number with None => [] | Some n => txt "-" ++ firstn 31 (pad4 n) end.
Definition mToVTK (stack : nat) (rank size : nat) (m : umesh) (fns : list darray) (base : text) (number : option nat)
  (h : heap) : res (heap * list (text * text)) :=
  let '(w, h) := new_pwriter h in
  let w := fold_left paddCellData fns (pbuildMesh w m) in
  '(h, files) <- pToVTK stack rank size w (mesh_name base number) h ;;
  Ok (fold_left hfree [proot w; uroot (pvtu w)] h, files).
