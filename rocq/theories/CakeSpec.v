(** What the demos should produce, independent of the functions of CakeModel.v (only its data types are used). *)
From Coq Require Import String Ascii List Bool Arith ZArith QArith.
From Verif Require Import Base CakeModel.
Import ListNotations.
Open Scope string_scope.
Open Scope list_scope.
Open Scope nat_scope.

(** The scopes after a history of changes: those of the last change. *)
Inductive scopes_after : list (string * option string) -> string -> string -> Prop :=
| scopes_initial : scopes_after [] "citrine-demo" "citrine-demo-template"
| scopes_derived l d : scopes_after (l ++ [(d, None)]) d (d ++ "-template")
| scopes_given l d t : scopes_after (l ++ [(d, Some t)]) d t.

(** The notes of a run: a quotation of those of its spec, if there are any. *)
Inductive noted : option string -> option string -> option string -> Prop :=
| noted_none old : noted None old old
| noted_empty old : noted (Some "") old old
| noted_some t old : t <> "" -> noted (Some t) old (Some ("The spec says """ ++ t ++ """")%string).
(** The name of a material: that of a supplier in front if it is raw. *)
Inductive supplied : list string -> string -> string -> string -> Prop :=
| supplied_made tags name old : ~ In "raw material" tags -> supplied tags name old old
| supplied_produce tags name old p : In "raw material" tags -> In "produce" tags -> In p ["Fresh Farm"; "Sunnydale"; "Greenbrook"] ->
    supplied tags name old (p ++ " " ++ name)
| supplied_dry tags name old p : In "raw material" tags -> ~ In "produce" tags -> In p ["Acme"; "A1"; "Reliable"; "Big Box"] ->
    supplied tags name old (p ++ " " ++ name).
(** The quantities of an ingredient, for a draw r; a quantity its spec does not have stays as it was. *)
Definition fuzzed (f : Q -> string -> rquant -> Prop) (q : option squant) (old new : option rquant) : Prop :=
  match q with
  | None => new = old
  | Some q => exists x v, sq_nominal q = Some x /\ new = Some v /\ f x (sq_units q) v
  end.
Definition normal_about (r x : Q) (u : string) (v : rquant) : Prop :=
  exists m s, v = RNormal m s u /\ (m == x * (95 # 100) + x * r * (1 # 10))%Q /\ (s == x * (1 # 20))%Q.
Definition normal_above (r x : Q) (u : string) (v : rquant) : Prop :=
  exists m s, v = RNormal m s u /\ (m == x + (45 # 10000) + r * (1 # 1000))%Q /\ (s == 5 # 1000)%Q.
Definition uniform_about (r x : Q) (u : string) (v : rquant) : Prop :=
  exists a b, v = RUniform a b u /\ (a == x * (9 # 10) + x * r * (1 # 10))%Q /\ (b == x + x * r * (1 # 10))%Q.

(** What needs a draw: ingredients and raw materials. *)
Definition needs_draw (r : crun) : bool :=
  match cr_kind r with
  | CIngredient => true
  | CMaterial => existsb (String.eqb "raw material") (cs_tags (cr_spec r))
  | _ => false
  end.
(** What all runs get. *)
Definition marked (key : string) (r r' : crun) : Prop :=
  (exists u, cs_uid (cr_spec r) = Some u /\ cr_uid r' = Some (u ++ "-" ++ key)%string)
  /\ cr_tags r' = cs_tags (cr_spec r) /\ noted (cs_notes (cr_spec r)) (cr_notes r) (cr_notes r')
  /\ cr_kind r' = cr_kind r /\ cr_spec r' = cr_spec r /\ cr_output r' = cr_output r.
Definition same_quantities (r r' : crun) : Prop :=
  cr_absolute r' = cr_absolute r /\ cr_volume r' = cr_volume r /\ cr_mass r' = cr_mass r /\ cr_number r' = cr_number r.
(** What a run gets by its kind: [draw] is its random number, [output] the name of its output material, [src] the source of the
    process of the cake. *)
Definition particular (draw : Q) (output : string) (src : option source) (r r' : crun) : Prop :=
  match cr_kind r with
  | CMaterial => supplied (cs_tags (cr_spec r)) (cs_name (cr_spec r)) (cr_name r) (cr_name r') /\ cr_source r' = cr_source r /\ same_quantities r r'
  | CProcess =>
      same_quantities r r'
      /\ (cs_template (cr_spec r) = Some "Procuring" /\ cr_output r <> None /\ cr_name r' = ("Procuring " ++ output)%string /\ cr_source r' = Some (mkSource "hamilton" "2015-02-17")
          \/ (exists t, cs_template (cr_spec r) = Some t /\ t <> "Procuring") /\ cr_name r' = cr_name r /\ cr_source r' = src)
  | CIngredient =>
      cr_name r' = cr_name r /\ cr_source r' = cr_source r
      /\ fuzzed (normal_about draw) (cs_absolute (cr_spec r)) (cr_absolute r) (cr_absolute r')
      /\ fuzzed (normal_above draw) (cs_volume (cr_spec r)) (cr_volume r) (cr_volume r')
      /\ fuzzed (uniform_about draw) (cs_mass (cr_spec r)) (cr_mass r) (cr_mass r')
      /\ fuzzed (normal_about draw) (cs_number (cr_spec r)) (cr_number r) (cr_number r')
  | COther => True
  end.
(** What a run needs: a uid of the scope, a template and (to be procured) an output, quantities with nominal values. *)
Definition ready (r : crun) : Prop :=
  cr_kind r = COther
  \/ cs_uid (cr_spec r) <> None
     /\ (cr_kind r = CProcess -> cs_template (cr_spec r) <> None /\ (cs_template (cr_spec r) = Some "Procuring" -> cr_output r <> None))
     /\ (cr_kind r = CIngredient -> forall q, In (Some q) [cs_absolute (cr_spec r); cs_volume (cr_spec r); cs_mass (cr_spec r); cs_number (cr_spec r)] -> sq_nominal q <> None).

(** The materials that went into a material, itself first, then those of each ingredient in turn. *)
Inductive preorder (ingredients : nat -> option (list (option nat))) : nat -> list nat -> Prop :=
| preorder_node m l ls : ingredients m = Some (map Some l) -> preorders ingredients l ls -> preorder ingredients m (m :: ls)
with preorders (ingredients : nat -> option (list (option nat))) : list nat -> list nat -> Prop :=
| preorders_nil : preorders ingredients [] []
| preorders_cons x l a b : preorder ingredients x a -> preorders ingredients l b -> preorders ingredients (x :: l) (a ++ b).
Scheme preorder_mind := Induction for preorder Sort Prop with preorders_mind := Induction for preorders Sort Prop.
Definition occurs (part s : string) : Prop := exists a b, s = (a ++ part ++ b)%string.
(** The first of a list with a part in its name. *)
Definition first_with {A} (name : A -> string) (part : string) (l : list A) (r : option A) : Prop :=
  match r with
  | Some x => exists a b, l = a ++ x :: b /\ occurs part (name x) /\ forall y, In y a -> ~ occurs part (name y)
  | None => forall y, In y l -> ~ occurs part (name y)
  end.

(** Three-point bending (https://en.wikipedia.org/wiki/Three-point_flexural_test) with F = 100 N, L = 64 mm, b = 10 mm, d = 4 mm. *)
Section Bend.
  Open Scope Q_scope.
  Definition bend_stress : Q := 3 * 100 * 64 / (2 * 10 * (4 * 4)).
  Definition bend_strain (D : Q) : Q := 6 * D * 4 / (64 * 64).
  Definition bend_modulus (D : Q) : Q := 64 * 64 * 64 * 100 / (4 * 10 * (4 * 4 * 4) * D).
  Definition percent (p : Q * Q) (x : Q) : Prop := fst p == x /\ snd p == x / 100.
End Bend.
