(** Model of festim/materials/material.py and festim/materials/materials.py (borders, ids, checks and
    lookups).  The fields of properties created for post-processing are in Model/Laws.v. *)
From Coq Require Import ZArith List Bool String.
From Verif Require Import Base.Exc Base.Num.
Import ListNotations.
Local Open Scope string_scope.

(** Material.id: an int or a list of ints (material.py L4-6). *)
Inductive mat_id : Type :=
| IdOne (z : Z)
| IdMany (l : list Z).

(** "if type(mat.id) is list: mat.id else: [mat.id]" *)
Definition ids (i : mat_id) : list Z :=
  match i with IdOne z => [z] | IdMany l => l end.

Inductive law : Type := Sievert | Henry.

(** solubility_law argument, material.py L67-71. *)
Definition parse_law (s : string) : res law :=
  if String.eqb s "henry" then Ok Henry
  else if String.eqb s "sievert" then Ok Sievert
  else Err (ValueError "Acceptable values for solubility_law are 'henry' and 'sievert'").

Section Materials.
Context {A : Type} {N : Num A}.
(** [P]: values of properties (floats or callables). *)
Variable P : Type.

(** Material.borders: None, [a, b] or [[a, b], [c, d], ...]. Simplification: each border is a pair of
    numbers (other lists raise or are ignored by the code). *)
Inductive borders : Type :=
| BNone
| BOne (b : A * A)
| BMany (l : list (A * A)).

Record material : Type := mkMaterial {
  m_id       : mat_id;
  m_name     : option string;
  m_D0       : P;
  m_ED       : P;
  m_S0       : option P;
  m_ES       : option P;
  m_thermal  : option P;      (* thermal_cond *)
  m_heat     : option P;      (* heat_capacity *)
  m_rho      : option P;
  m_borders  : borders;
  m_Q        : option P;
  m_law      : law
}.

(** material.py L73-83: check_properties, the end of __init__. *)
Definition check_properties (m : material) : res material :=
  match m_S0 m, m_ES m with
  | None, Some _ => Err (ValueError "S_0 cannot be None")
  | Some _, None => Err (ValueError "E_S cannot be None")
  | _, _ => Ok m
  end.

Definition materials := list material.

(** materials.py L64-71: the loop collecting the borders. m.borders[0] fails for None and []. *)
Fixpoint collect_borders (l : materials) : res (list (A * A)) :=
  match l with
  | [] => Ok []
  | m :: r =>
      let! bs := (match m_borders m with
                  | BNone => Err (TypeError "'NoneType' object is not subscriptable")
                  | BOne b => Ok [b]
                  | BMany [] => Err (IndexError "list index out of range")
                  | BMany bs => Ok bs
                  end) in
      let! rest := collect_borders r in
      Ok (bs ++ rest)%list
  end.

(** sorted(all_borders, key=itemgetter(0)): stable insertion sort on the first component. *)
Fixpoint insert_border (b : A * A) (l : list (A * A)) : list (A * A) :=
  match l with
  | [] => [b]
  | c :: r => if nltb (fst c) (fst b) then c :: insert_border b r else b :: c :: r
  end.
Fixpoint sort_borders (l : list (A * A)) : list (A * A) :=
  match l with
  | [] => []
  | b :: r => insert_border b (sort_borders r)
  end.

(** materials.py L75-77: the loop comparing consecutive borders. *)
Fixpoint check_matching (l : list (A * A)) : res unit :=
  match l with
  | b :: ((c :: _) as r) =>
      if neqb (snd b) (fst c) then check_matching r
      else Err (ValueError "Borders don't match to each other")
  | _ => Ok tt
  end.

(** materials.py L51-80: check_borders. *)
Definition check_borders (l : materials) (size : A) : res bool :=
  let! bs := collect_borders l in
  let all := sort_borders bs in
  match all with
  | [] => Err (IndexError "list index out of range")
  | b :: _ =>
      if negb (neqb (fst b) n0) then Err (ValueError "Borders don't begin at zero")
      else
        let! _ := check_matching all in
        if neqb (snd (last all b)) size then Ok true
        else Err (ValueError "Borders don't match with size")
  end.

(** materials.py L100-110: check_unique_ids; len(np.unique(l)) != len(l). *)
Definition all_ids (l : materials) : list Z := flat_map (fun m => ids (m_id m)) l.
Definition check_unique_ids (l : materials) : res unit :=
  if Nat.eqb (List.length (all_ids l)) (List.length (nodup Z.eq_dec (all_ids l))) then Ok tt
  else Err (ValueError "Some materials have the same id").

(** What check_materials looks at in the temperature and in the derived quantities. *)
Inductive temp_kind : Type :=
| Given                       (* festim.Temperature *)
| HeatTransfer (transient : bool).
Definition is_heat (T : temp_kind) : bool := match T with HeatTransfer _ => true | _ => false end.

Definition is_some {B} (o : option B) : bool := match o with Some _ => true | None => false end.

(** materials.py L112-147: check_for_unused_properties, returning the warnings.
    [thermal_flux]: some derived quantity is a SurfaceFlux of field "T" (ThermalFlux is one). *)
Definition check_for_unused_properties (l : materials) (T : temp_kind) (thermal_flux : bool)
  : list string :=
  ((if is_heat T then []
    else flat_map (fun m =>
           (if is_some (m_rho m) then ["rho key will be ignored"] else []) ++
           (if is_some (m_heat m) then ["heat_capacity key will be ignored"] else [])) l)
   ++ flat_map (fun m => if (is_some (m_thermal m) && negb (is_heat T || thermal_flux))%bool
                         then ["thermal_cond key will be ignored"] else []) l)%list.

(** materials.py L149-166: check_consistency. value.count(None) not in [0, len(self)]. *)
Definition count_none {B} (f : material -> option B) (l : materials) : nat :=
  List.length (filter (fun m => negb (is_some (f m))) l).
Definition consistent {B} (f : material -> option B) (l : materials) : bool :=
  (Nat.eqb (count_none f l) 0 || Nat.eqb (count_none f l) (List.length l))%bool.
Definition border_opt (m : material) : option borders :=
  match m_borders m with BNone => None | b => Some b end.
Definition check_attribute {B} (name : string) (f : material -> option B) (l : materials) : res unit :=
  if consistent f l then Ok tt else Err (ValueError (name ++ " is not defined for all materials")).
Definition check_consistency (l : materials) : res unit :=
  let! _ := check_attribute "S_0" m_S0 l in
  let! _ := check_attribute "E_S" m_ES l in
  let! _ := check_attribute "thermal_cond" m_thermal l in
  let! _ := check_attribute "heat_capacity" m_heat l in
  let! _ := check_attribute "rho" m_rho l in
  let! _ := check_attribute "borders" border_opt l in
  check_attribute "Q" m_Q l.

(** materials.py L168-186: check_missing_properties (only self[0] is looked at). *)
Definition check_missing_properties (l : materials) (T : temp_kind) : res unit :=
  match T with
  | Given => Ok tt
  | HeatTransfer transient =>
      match l with
      | [] => Err (IndexError "list index out of range")
      | m :: _ =>
          if negb (is_some (m_thermal m)) then Err (ValueError "Missing thermal_cond in materials")
          else if transient then
            if negb (is_some (m_heat m)) then Err (ValueError "Missing heat_capacity in materials")
            else if negb (is_some (m_rho m)) then Err (ValueError "Missing rho in materials")
            else Ok tt
          else Ok tt
      end
  end.

(** materials.py L82-98: check_materials; returns the warnings. *)
Definition check_materials (l : materials) (T : temp_kind) (thermal_flux : bool) : res (list string) :=
  match l with
  | [] => Ok []
  | _ =>
      let! _ := check_consistency l in
      let warnings := check_for_unused_properties l T thermal_flux in
      let! _ := check_unique_ids l in
      let! _ := check_missing_properties l T in
      Ok warnings
  end.

(** materials.py L188-206: find_material_from_id. *)
Fixpoint find_material_from_id (l : materials) (z : Z) : res material :=
  match l with
  | [] => Err (ValueError "Couldn't find ID in materials list")
  | m :: r => if existsb (Z.eqb z) (ids (m_id m)) then Ok m else find_material_from_id r z
  end.

(** materials.py L208-225: find_material_from_name. *)
Definition name_is (name : string) (m : material) : bool :=
  match m_name m with Some n => String.eqb n name | None => false end.
Fixpoint find_material_from_name (l : materials) (name : string) : res material :=
  match l with
  | [] => Err (ValueError "No material with this name was found")
  | m :: r => if name_is name m then Ok m else find_material_from_name r name
  end.

(** materials.py L227-242: find_material; other types return None. *)
Inductive tag : Type :=
| TagId (z : Z)
| TagName (s : string)
| TagMaterial (m : material)
| TagOther.
Definition find_material (l : materials) (t : tag) : res (option material) :=
  match t with
  | TagId z => let! m := find_material_from_id l z in Ok (Some m)
  | TagName s => let! m := find_material_from_name l s in Ok (Some m)
  | TagMaterial m => Ok (Some m)
  | TagOther => Ok None
  end.

(** materials.py L268-270: the loop over zip(list_of_borders, subdomains). *)
Definition within (x : A) (b : A * A) : bool := (nleb (fst b) x && nleb x (snd b))%bool.
Fixpoint find_border (x : A) (bs : list (A * A)) (subdomains : list Z) : option Z :=
  match bs, subdomains with
  | b :: r, s :: r' => if within x b then Some s else find_border x r r'
  | _, _ => None
  end.

(** materials.py L244-272: find_subdomain_from_x_coordinate.  The result is an int or (for a material
    without borders) whatever its id is.  A nested list with a single border is compared with x as a
    list, which raises. *)
Fixpoint find_subdomain_from_x_coordinate (l : materials) (x : A) : res mat_id :=
  match l with
  | [] => Ok (IdOne 0)
  | m :: r =>
      match m_borders m with
      | BNone => Ok (m_id m)
      | bd =>
          let! bs := (match bd with
                      | BMany [] => Err (IndexError "list index out of range")
                      | BMany [_] =>
                          match m_id m with
                          | IdMany [] => Ok []          (* nothing to iterate *)
                          | _ => Err (TypeError "'<=' not supported between instances of 'list' and 'float'")
                          end
                      | BMany bs => Ok bs
                      | BOne b => Ok [b]
                      | BNone => Ok []
                      end) in
          let subdomains := match m_id m with
                            | IdMany s => s
                            | IdOne z => repeat z (List.length bs)
                            end in
          match find_border x bs subdomains with
          | Some s => Ok (IdOne s)
          | None => find_subdomain_from_x_coordinate r x
          end
      end
  end.
End Materials.

Arguments BNone {A}.
Arguments BOne {A} b.
Arguments BMany {A} l.
Arguments mkMaterial {A P} _ _ _ _ _ _ _ _ _ _ _ _.
Arguments m_id {A P} _.
Arguments m_name {A P} _.
Arguments m_D0 {A P} _.
Arguments m_ED {A P} _.
Arguments m_S0 {A P} _.
Arguments m_ES {A P} _.
Arguments m_thermal {A P} _.
Arguments m_heat {A P} _.
Arguments m_rho {A P} _.
Arguments m_borders {A P} _.
Arguments m_Q {A P} _.
Arguments m_law {A P} _.
Arguments check_properties {A P} m.
Arguments collect_borders {A P} l.
Arguments insert_border {A N} b l.
Arguments sort_borders {A N} l.
Arguments check_matching {A N} l.
Arguments check_borders {A N P} l size.
Arguments all_ids {A P} l.
Arguments check_unique_ids {A P} l.
Arguments check_for_unused_properties {A P} l T thermal_flux.
Arguments count_none {A P B} f l.
Arguments consistent {A P B} f l.
Arguments border_opt {A P} m.
Arguments check_attribute {A P B} name f l.
Arguments check_consistency {A P} l.
Arguments check_missing_properties {A P} l T.
Arguments check_materials {A P} l T thermal_flux.
Arguments find_material_from_id {A P} l z.
Arguments name_is {A P} name m.
Arguments find_material_from_name {A P} l name.
Arguments TagId {A P} z.
Arguments TagName {A P} s.
Arguments TagMaterial {A P} m.
Arguments TagOther {A P}.
Arguments find_material {A P} l t.
Arguments within {A N} x b.
Arguments find_border {A N} x bs subdomains.
Arguments find_subdomain_from_x_coordinate {A N P} l x.
