(** Specification of XML text (the part of XML 1.0 used here), of VTK documents. *)
From Coq Require Import Ascii String.
From Coq Require Decimal.
From Verif Require Import Base XmlModel.

(** ** Characters (ASCII) *)
Definition code (c : ascii) : nat := nat_of_ascii c.
Definition between (a b : nat) (c : ascii) : bool := (a <=? code c) && (code c <=? b).
(** Space, tab, line feed; carriage returns are changed by XML readers and excluded. *)
Definition is_space (c : ascii) : bool := (code c =? 32) || (code c =? 9) || (code c =? 10).
(** Letters, underscore, colon; then also digits, hyphen, full stop. *)
Definition name_start (c : ascii) : bool := between 65 90 c || between 97 122 c || (code c =? 95) || (code c =? 58).
Definition name_char (c : ascii) : bool := name_start c || between 48 57 c || (code c =? 45) || (code c =? 46).
Definition is_name (n : text) : bool :=
  match n with [] => false | c :: n' => name_start c && forallb name_char n' end.
(** Printable characters or space. *)
Definition printable (c : ascii) : bool := between 32 126 c.
(** No less-than sign, no ampersand. *)
Definition char_data (c : ascii) : bool :=
  (printable c || is_space c) && negb (code c =? 60) && negb (code c =? 38).
(** ... and no quotation mark. *)
Definition value_char (c : ascii) : bool := char_data c && negb (code c =? 34).
(** Contains "]]>". *)
Definition begins_end (s : text) : bool :=
  match s with a :: b :: c :: _ => (code a =? 93) && (code b =? 93) && (code c =? 62) | _ => false end.
Fixpoint has_end (s : text) : bool := match s with [] => false | _ :: s' => begins_end s || has_end s' end.

Fixpoint skip (s : text) : text := match s with c :: s' => if is_space c then skip s' else s | [] => [] end.
Definition trim (s : text) : text := rev (skip (rev (skip s))).
(** Readers replace tabs and line feeds in attribute values by spaces. *)
Definition normalise (v : text) : text := map (fun c => if is_space c then " "%char else c) v.

(** ** What a reader returns: names, attributes, pieces of text and elements in order *)
Inductive elem : Type := Elem (name : text) (attrs : list (text * text)) (items : list (text + elem)).

(** ** Grammar: [element s e r] means that the text [s] starts with the element [e] and
    [r] follows.  No references, comments, CDATA sections, processing instructions,
    empty-element tags or single quotes; a text with these is in no relation. *)
Inductive attributes : text -> list (text * text) -> text -> Prop :=
| attributes_end s r : skip s = txt ">" ++ r -> attributes s [] r
| attributes_next w n v s l r : w <> [] -> forallb is_space w = true -> is_name n = true ->
    forallb value_char v = true -> attributes s l r ->
    attributes (w ++ n ++ txt "=""" ++ v ++ txt """" ++ s) ((n, normalise v) :: l) r.

Inductive element : text -> elem -> text -> Prop :=
| element_tag n s attrs s1 items s2 s3 : is_name n = true ->
    attributes s attrs s1 -> NoDup (map fst attrs) -> content s1 items (txt "</" ++ n ++ s2) ->
    skip s2 = txt ">" ++ s3 ->
    element (txt "<" ++ n ++ s) (Elem n attrs items) s3
with content : text -> list (text + elem) -> text -> Prop :=
| content_end s : content (txt "</" ++ s) [] (txt "</" ++ s)
| content_elem s e s1 l s2 : element s e s1 -> content s1 l s2 -> content s (inr e :: l) s2
| content_text t s l s2 : t <> [] -> forallb char_data t = true -> has_end t = false ->
    hd_error s = Some "<"%char -> content s l s2 -> content (t ++ s) (inl t :: l) s2.

(** Declaration, one element, white space around it. *)
Definition document (s : text) (e : elem) : Prop :=
  exists s1 s2, s = txt "<?xml version=""1.0""?>" ++ s1 /\ element (skip s1) e s2 /\ skip s2 = [].

(** ** Trees of nodes *)
Inductive xtree : Type := XTree (name : text) (attrs : list (text * text)) (data : text) (children : list xtree).

(** The objects reachable from the address form the tree. *)
Inductive tree_at (h : heap) : nat -> xtree -> Prop :=
| tree_at_node a o ts : hobj h a = Some o -> trees_at h (xchildren o) ts ->
    tree_at h a (XTree (xname o) (xattrs o) (xdata o) ts)
with trees_at (h : heap) : list nat -> list xtree -> Prop :=
| trees_at_nil : trees_at h [] []
| trees_at_cons a l t ts : tree_at h a t -> trees_at h l ts -> trees_at h (a :: l) (t :: ts).

Fixpoint height (t : xtree) : nat :=
  match t with XTree _ _ _ ch => S (fold_right (fun t m => Nat.max (height t) m) 0 ch) end.

(** The tree an application sees: text is trimmed, elements are children. *)
Fixpoint read (e : elem) : xtree :=
  match e with
  | Elem n attrs items =>
      XTree n attrs (trim (flat_map (fun i => match i with inl t => t | inr _ => [] end) items))
        (flat_map (fun i => match i with inl _ => [] | inr e => [read e] end) items)
  end.

(** The data of all nodes trimmed. *)
Fixpoint trimmed (t : xtree) : xtree :=
  match t with XTree n a d ch => XTree n a (trim d) (map trimmed ch) end.

(** Names are XML names, attributes of a node have different names, values are printable
    without quotation mark, less-than sign and ampersand; data without less-than sign, ampersand and "]]>". *)
Fixpoint plain (t : xtree) : Prop :=
  match t with
  | XTree n a d ch =>
      is_name n = true /\
      forallb (fun p => is_name (fst p) && forallb (fun c => value_char c && printable c) (snd p)) a = true /\
      NoDup (map fst a) /\ forallb char_data d = true /\ has_end d = false /\
      fold_right (fun t P => plain t /\ P) True ch
  end.

(** ** VTK documents *)

Definition array_tree (d : darray) (mn mx : text) : xtree :=
  XTree (txt "DataArray")
    [(txt "type", da_type d); (txt "Name", da_name d); (txt "NumberOfComponents", da_components d);
     (txt "format", da_format d); (txt "RangeMin", mn); (txt "RangeMax", mx)] (da_data d) [].
Definition parray_tree (d : darray) : xtree :=
  XTree (txt "PDataArray")
    [(txt "type", da_type d); (txt "Name", da_name d); (txt "NumberOfComponents", da_components d);
     (txt "format", da_format d)] [] [].
(** The tree of an array that has a range. *)
Definition has_tree (d : darray) (t : xtree) : Prop :=
  exists mn mx, da_min d = Ok mn /\ da_max d = Ok mx /\ t = array_tree d mn mx.

Definition group (name : string) (ds : list darray) (ts : list xtree) : xtree :=
  XTree (txt name) (match ds with [] => [] | _ => [(txt "Scalars", flat_map (fun d => da_name d ++ txt " ") ds)] end) [] ts.
(** The group if there are arrays, otherwise nothing. *)
Definition group_if (name : string) (ds : list darray) (ts : list xtree) : list xtree :=
  match ds with [] => [] | _ => [group name ds ts] end.
Definition vtk_file (type : string) (t : xtree) : xtree :=
  XTree (txt "VTKFile") [(txt "type", txt type); (txt "version", txt "0.1"); (txt "byte_order", txt "LittleEndian")] [] [t].

(** A VTU file: points, connectivity, offsets, types, data in cells and points. *)
Definition vtu_tree (m : umesh) (cell point : list darray) (pts conn offs typs : xtree) (cs ps : list xtree) : xtree :=
  vtk_file "UnstructuredGrid"
   (XTree (txt "UnstructuredGrid") [] []
     [XTree (txt "Piece") [(txt "NumberOfPoints", um_npoints m); (txt "NumberOfCells", um_ncells m)] []
       ([XTree (txt "Points") [] [] [pts]; XTree (txt "Cells") [] [] [conn; offs; typs]] ++
        group_if "CellData" cell cs ++ group_if "PointData" point ps)]).
Definition describes_mesh (m : umesh) (cell point : list darray) (t : xtree) : Prop :=
  exists pts conn offs typs cs ps,
  has_tree (um_points m) pts /\ has_tree (um_connectivity m) conn /\ has_tree (um_offsets m) offs /\
  has_tree (um_types m) typs /\ Forall2 has_tree cell cs /\ Forall2 has_tree point ps /\
  t = vtu_tree m cell point pts conn offs typs cs ps.
(** A VTR file. *)
Definition describes_grid (whole extent : text) (coords cell point : list darray) (t : xtree) : Prop :=
  exists xs cs ps, Forall2 has_tree coords xs /\ Forall2 has_tree cell cs /\ Forall2 has_tree point ps /\
  t = vtk_file "RectilinearGrid"
   (XTree (txt "RectilinearGrid") [(txt "WholeExtent", whole)] []
     [XTree (txt "Piece") [(txt "Extent", extent)] []
       (group_if "CellData" cell cs ++ group_if "PointData" point ps ++ [XTree (txt "Coordinates") [] [] xs])]).
(** The header of a parallel file, with the names of the pieces. *)
Definition pvtu_tree (m : umesh) (cell point : list darray) (pieces : list text) : xtree :=
  vtk_file "UnstructuredGrid"
   (XTree (txt "PUnstructuredGrid") [(txt "GhostLevel", txt "0")] []
     ([XTree (txt "PPoints") [] [] [parray_tree (um_points m)];
       group "PPointData" point (map parray_tree point); group "PCellData" cell (map parray_tree cell)] ++
      map (fun nm => XTree (txt "Piece") [(txt "Source", nm)] [] []) pieces)).

(** The file holds the tree: it is well-formed, can be read in one way only, and this
    gives the tree (with trimmed data). *)
Definition holds_tree (s : text) (t : xtree) : Prop :=
  exists e, document s e /\ (forall e', document s e' -> e' = e) /\ read e = trimmed t.

(** Arrays that have a range (vectors with entries). *)
Definition has_range (d : darray) : Prop := is_ok (da_min d) /\ is_ok (da_max d).
Definition mesh_has_range (m : umesh) : Prop :=
  has_range (um_points m) /\ has_range (um_connectivity m) /\ has_range (um_offsets m) /\ has_range (um_types m).
(** Nothing is allocated beyond the counter. *)
Definition fresh (h : heap) : Prop := forall a, hnext h <= a -> hobj h a = None.

(** ** File names *)
Definition no_nul (s : text) : bool := forallb (fun c => negb (Ascii.eqb c "000"%char)) s.
Definition no_percent (s : text) : bool := forallb (fun c => negb (Ascii.eqb c "%"%char)) s.
(** Every percent sign written twice. *)
Fixpoint doubled (s : text) : text :=
  match s with
  | [] => []
  | c :: s' => if Ascii.eqb c "%"%char then c :: c :: doubled s' else c :: doubled s'
  end.
(** The name of the file of every rank fits in the buffer of 256 characters: base, underscore,
    at least four digits, suffix, NUL. *)
Definition names_fit (base : text) (size : nat) : Prop :=
  forall r, r < size -> length base + Nat.max 4 (Decimal.nb_digits (Nat.to_uint r)) + 6 <= 256.

(** ** Writers *)

(** A new writer with a mesh and data. *)
Definition ufilled (h : heap) (m : umesh) (cell point : list darray) : uwriter * heap :=
  let '(w, h1) := new_uwriter h in
  (fold_left uaddPointData point (fold_left uaddCellData cell (ubuildMesh w m)), h1).
Definition rfilled (h : heap) (whole extent : text) (x y z : option darray) (cell point : list darray) : rwriter * heap :=
  let '(w, h1) := new_rwriter h in
  (fold_left raddPointData point (fold_left raddCellData cell (rbuildMesh w whole extent x y z)), h1).
Definition pfilled (h : heap) (m : umesh) (cell point : list darray) : pwriter * heap :=
  let '(w, h1) := new_pwriter h in
  (fold_left paddPointData point (fold_left paddCellData cell (pbuildMesh w m)), h1).

(** The coordinates of a rectilinear grid; one value 0.0 if there are none. *)
Definition coordinates (x : option darray) : darray :=
  match x with
  | Some d => d
  | None => DArray (txt "Float32") (txt "Empty") (txt "1") (txt "ascii") (Ok (txt "0.0")) (Ok (txt "0.0")) (txt "0.0")
  end.

(** The file contains a tree with the property; it can be read back if names and values are plain. *)
Definition file_of (P : xtree -> Prop) (s : text) : Prop := exists t, P t /\ (plain t -> holds_tree s t).
