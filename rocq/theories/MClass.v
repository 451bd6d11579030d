(** Class composition of the library: which class defines which method and which
    methods of the instance each method refers to (as [self.name]).
    Generated by reading the sources; names only, no behaviour. *)
Require Import Verif.Py Verif.MTools Verif.MEigen Verif.MFields Verif.MRaster Verif.MSolution.
Open Scope string_scope.

(** A class statement, e.g. weac/layered.py:12-13. *)
Record cls : Type := mkCls {
  c_name : string;
  c_bases : list string;
  c_methods : list (string * list string)   (* name, instance methods referred to *)
}.

(** weac/eigensystem.py:12-617 [Eigensystem]. *)
Definition cls_Eigensystem : cls := mkCls "Eigensystem" []
  [("__init__", []);
   ("set_foundation_properties", ["calc_fundamental_system"]);
   ("set_beam_properties", ["calc_fundamental_system"]);
   ("set_surface_load", []);
   ("calc_foundation_stiffness", []);
   ("get_ply_coordinates", []);
   ("calc_laminate_stiffness_matrix", ["get_ply_coordinates"]);
   ("calc_system_matrix", []);
   ("get_load_vector", ["get_weight_load"; "get_surface_load"]);
   ("calc_eigensystem", ["calc_system_matrix"]);
   ("calc_fundamental_system", ["calc_foundation_stiffness"; "calc_laminate_stiffness_matrix"; "calc_eigensystem"]);
   ("get_weight_load", []);
   ("get_surface_load", []);
   ("get_skier_load", []);
   ("zh", []);
   ("zp", ["get_weight_load"; "get_surface_load"]);
   ("z", ["zp"; "zh"])].

(** weac/mixins.py:16-484 [FieldQuantitiesMixin]. *)
Definition cls_FieldQuantitiesMixin : cls := mkCls "FieldQuantitiesMixin" []
  [("w", []);
   ("dw_dx", []);
   ("psi", []);
   ("dpsi_dx", []);
   ("u", ["psi"]);
   ("du_dx", ["dpsi_dx"]);
   ("N", []);
   ("M", []);
   ("V", []);
   ("sig", ["w"]);
   ("tau", ["u"; "dw_dx"]);
   ("eps", ["w"]);
   ("gamma", ["dw_dx"; "u"]);
   ("Gi", ["sig"]);
   ("Gii", ["tau"]);
   ("int1", ["sig"; "eps"]);
   ("int2", ["tau"; "gamma"]);
   ("dz_dx", ["calc_system_matrix"; "get_load_vector"]);
   ("dz_dxdx", ["calc_system_matrix"; "get_load_vector"]);
   ("du0_dxdx", ["dz_dx"]);
   ("dpsi_dxdx", ["dz_dx"]);
   ("du0_dxdxdx", ["dz_dxdx"]);
   ("dpsi_dxdxdx", ["dz_dxdx"])].

(** weac/mixins.py:487-813 [SlabContactMixin]. *)
Definition cls_SlabContactMixin : cls := mkCls "SlabContactMixin" []
  [("set_columnlength", []);
   ("set_cracklength", []);
   ("set_tc", ["calc_qn"]);
   ("set_phi", []);
   ("set_stiffness_ratio", []);
   ("calc_qn", ["get_weight_load"; "get_surface_load"]);
   ("calc_qt", ["get_weight_load"; "get_surface_load"]);
   ("substitute_stiffness", ["assemble_and_solve"; "rasterize_solution"; "calc_system_matrix"; "calc_eigensystem"; "psi"; "w"]);
   ("calc_a1", ["calc_qn"; "substitute_stiffness"]);
   ("calc_a2", ["calc_qn"; "substitute_stiffness"]);
   ("calc_lA", []);
   ("calc_lB", []);
   ("calc_lC", ["calc_qn"; "substitute_stiffness"]);
   ("set_touchdown_attributes", ["set_columnlength"; "set_cracklength"; "set_tc"; "set_phi"; "set_stiffness_ratio"]);
   ("calc_touchdown_mode", ["calc_a1"; "calc_a2"]);
   ("calc_touchdown_length", ["calc_lA"; "calc_lB"; "calc_lC"]);
   ("calc_touchdown_system", ["set_touchdown_attributes"; "calc_touchdown_mode"; "calc_touchdown_length"])].

(** weac/mixins.py:816-1249 [SolutionMixin]. *)
Definition cls_SolutionMixin : cls := mkCls "SolutionMixin" []
  [("bc", ["N"; "M"; "V"; "u"; "w"; "psi"; "substitute_stiffness"]);
   ("eqs", ["u"; "w"; "psi"; "N"; "M"; "V"; "bc"]);
   ("calc_segments", ["calc_touchdown_system"]);
   ("assemble_and_solve", ["eqs"; "get_skier_load"; "bc"; "zp"; "zh"; "calc_qt"])].

(** weac/mixins.py:1252-1769 [AnalysisMixin]. *)
Definition cls_AnalysisMixin : cls := mkCls "AnalysisMixin" []
  [("rasterize_solution", ["z"]);
   ("ginc", ["z"; "int1"; "int2"]);
   ("gdif", ["z"; "Gi"; "Gii"]);
   ("get_zmesh", ["get_ply_coordinates"]);
   ("Sxx", ["get_zmesh"; "du_dx"]);
   ("Txz", ["get_zmesh"; "du0_dxdx"; "dpsi_dxdx"]);
   ("Szz", ["get_zmesh"; "du0_dxdxdx"; "dpsi_dxdxdx"]);
   ("principal_stress_slab", ["Sxx"; "Txz"; "Szz"; "get_zmesh"]);
   ("principal_stress_weaklayer", ["sig"; "tau"])].

(** weac/mixins.py:1772-2085 [OutputMixin]. *)
Definition cls_OutputMixin : cls := mkCls "OutputMixin" []
  [("external_potential", ["rasterize_solution"; "w"; "u"; "calc_qn"; "calc_qt"]);
   ("internal_potential", ["rasterize_solution"; "w"; "u"; "N"; "M"; "V"; "psi"]);
   ("total_potential", ["internal_potential"; "external_potential"]);
   ("get_weaklayer_shearstress", ["tau"]);
   ("get_weaklayer_normalstress", ["sig"]);
   ("get_slab_displacement", ["u"]);
   ("get_slab_deflection", ["w"]);
   ("get_slab_rotation", ["psi"])].

(** weac/layered.py:12-49 [Layered]. *)
Definition cls_Layered : cls := mkCls "Layered" ["FieldQuantitiesMixin"; "SlabContactMixin"; "SolutionMixin"; "AnalysisMixin"; "OutputMixin"; "Eigensystem"]
  [("__init__", ["set_beam_properties"; "set_foundation_properties"; "calc_fundamental_system"])].

(** weac/inverse.py:12-54 [Inverse]. *)
Definition cls_Inverse : cls := mkCls "Inverse" ["FieldQuantitiesMixin"; "SolutionMixin"; "AnalysisMixin"; "OutputMixin"; "Eigensystem"]
  [("__init__", ["set_beam_properties"; "set_foundation_properties"; "calc_fundamental_system"])].

(** Classes of weac/eigensystem.py, weac/mixins.py, weac/layered.py and weac/inverse.py. *)
Definition classes : list cls :=
  [cls_Eigensystem; cls_FieldQuantitiesMixin; cls_SlabContactMixin; cls_SolutionMixin; cls_AnalysisMixin; cls_OutputMixin; cls_Layered; cls_Inverse].

(** Class names as referred to in weac/layered.py:12-13 and weac/inverse.py:12-13. *)
Definition find_class (n : string) : option cls :=
  find (fun c => String.eqb (c_name c) n) classes.

(** Method resolution order: the class, then its bases from left to right
    (weac/layered.py:12-13, weac/inverse.py:12-13; no base has bases of its own,
    see lemma bases_flat). *)
Definition mro (n : string) : list cls :=
  match find_class n with
  | None => []
  | Some c => c :: flat_map (fun b => match find_class b with Some d => [d] | None => [] end) (c_bases c)
  end.

(** Attribute lookup of a method on an instance of class [n]: the defining class
    and the methods the body refers to. *)
(** Lookup of [self.name], e.g. weac/mixins.py:1037. *)
Fixpoint lookup_in (l : list cls) (m : string) : option (string * list string) :=
  match l with
  | [] => None
  | c :: l' =>
      match find (fun d => String.eqb (fst d) m) (c_methods c) with
      | Some d => Some (c_name c, snd d)
      | None => lookup_in l' m
      end
  end.
(** Lookup of [self.name], e.g. weac/mixins.py:1037. *)
Definition lookup (n m : string) : option (string * list string) := lookup_in (mro n) m.
(** Whether [self.name], e.g. weac/mixins.py:1037, is found. *)
Definition has_method (n m : string) : bool :=
  match lookup n m with Some _ => true | None => false end.

(** weac/mixins.py:973-1081 [calc_segments] on an instance of class [n]: its first
    statement calls [self.calc_touchdown_system] (line 1037). *)
Definition calc_segments_on (n : string) eig solve brent maxeval li mi ki k0 L a m phi cf ratio
  : stM segments := fun o =>
  if has_method n "calc_segments" then
    if has_method n "calc_touchdown_system"
    then calc_segments eig solve brent maxeval li mi ki k0 L a m phi cf ratio o
    else (Err AttributeError, o)
  else (Err AttributeError, o).
