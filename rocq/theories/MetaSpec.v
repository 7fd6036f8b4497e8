(** What assigning the plain fields should do, independent of MetaModel.v's functions. *)
From Coq Require Import String List Bool Arith.
From Verif Require Import Base PyStr ValuesModel ValuesSpec TextSpec MetaModel.
Import ListNotations.
Open Scope string_scope.
Open Scope list_scope.

(** What a field is to hold. *)
Inductive content : Type := AText | MaybeText | Texts | Links | MaybeSource | OneOf (names : list string) | Anything | Fixed.

Definition an_object (c : cls) : Prop := In c [ProcessSpec; MaterialSpec; MeasurementSpec; IngredientSpec; ProcessRun; MaterialRun; MeasurementRun; IngredientRun].
Definition an_attribute (c : cls) : Prop := In c [AProperty; ACondition; AParameter].
Inductive contents : cls -> field -> content -> Prop :=
| c_name c : an_object c -> c <> IngredientRun -> contents c Name AText
| c_run_name : contents IngredientRun Name Fixed
| c_other_name c : ~ an_object c -> contents c Name Anything
| c_tags c : ~ an_attribute c -> c <> PerformedSource -> contents c Tags Texts
| c_notes c : contents c Notes Anything
| c_links c : an_object c \/ an_attribute c -> contents c FileLinks Links
| c_labels : contents IngredientSpec Labels Texts
| c_run_labels : contents IngredientRun Labels Fixed
| c_description c : contents c Description Anything
| c_names : contents ProcessTemplate AllowedNames Texts
| c_allowed : contents ProcessTemplate AllowedLabels Texts
| c_source c : c = ProcessRun \/ c = MeasurementRun -> contents c Source MaybeSource
| c_sample : contents MaterialRun SampleKind (OneOf ["experimental"; "production"; "virtual"; "unknown"])
| c_origin c : an_attribute c -> contents c Origin (OneOf ["measured"; "predicted"; "summary"; "specified"; "computed"; "unknown"])
| c_by : contents PerformedSource PerformedBy MaybeText
| c_date : contents PerformedSource PerformedDate MaybeText.

Definition a_text (x : item) : Prop := exists s, x = IText s.
Definition a_link (x : item) : Prop := exists n u, x = ILink n u.
(** [s] is [name] up to case and surrounding white space. *)
Definition spells (s name : string) : Prop := reads s name.

(** What is held after assigning: exactly what was given; a single item and None count as lists. *)
Inductive takes : content -> given -> held -> Prop :=
| t_text s : takes AText (GOne (IText s)) (HText s)
| t_maybe_none : takes MaybeText GNone HNone
| t_maybe s : takes MaybeText (GOne (IText s)) (HText s)
| t_texts_none : takes Texts GNone (HList [])
| t_texts_one s : takes Texts (GOne (IText s)) (HList [IText s])
| t_texts l : Forall a_text l -> takes Texts (GMany l) (HList l)
| t_links_none : takes Links GNone (HList [])
| t_links_one n u : takes Links (GOne (ILink n u)) (HList [ILink n u])
| t_links l : Forall a_link l -> takes Links (GMany l) (HList l)
| t_source_none : takes MaybeSource GNone HNone
| t_source n : takes MaybeSource (GOne (ISource n)) (HSource n)
| t_member names s m : In m names -> spells s m -> takes (OneOf names) (GOne (IText s)) (HMember (mkMember m []))
| t_any a : takes Anything a (HAny a).

(** The exception of a refused assignment. *)
Inductive refusal : content -> given -> exn -> Prop :=
| r_fixed a : refusal Fixed a AttributeError
| r_member_none names : refusal (OneOf names) GNone ValueError
| r_member_text names s : refusal (OneOf names) (GOne (IText s)) ValueError
| r_member_other names a : a <> GNone -> (forall s, a <> GOne (IText s)) -> refusal (OneOf names) a TypeError
| r_other c a : c = AText \/ c = MaybeText \/ c = Texts \/ c = Links \/ c = MaybeSource -> refusal c a TypeError.

(** What a field may hold at any time. *)
Inductive may_hold : content -> held -> Prop :=
| h_text s : may_hold AText (HText s)
| h_maybe_none : may_hold MaybeText HNone
| h_maybe s : may_hold MaybeText (HText s)
| h_texts l : Forall a_text l -> may_hold Texts (HList l)
| h_links l : Forall a_link l -> may_hold Links (HList l)
| h_source_none : may_hold MaybeSource HNone
| h_source n : may_hold MaybeSource (HSource n)
| h_member names m : In m names -> may_hold (OneOf names) (HMember (mkMember m []))
| h_any a : may_hold Anything (HAny a).

(** Two objects that differ in one field only. *)
Definition only_changed (o o' : object) (f : field) (v : held) : Prop :=
  o_cls o' = o_cls o /\ o_get o' f = Some v /\ forall g, g <> f -> o_get o' g = o_get o g.

(** The fields a constructor takes arguments for. *)
Definition a_template (c : cls) : Prop := In c [ProcessTemplate; MaterialTemplate; MeasurementTemplate; PropertyTemplate; ConditionTemplate; ParameterTemplate].
Definition an_attribute_template (c : cls) : Prop := In c [PropertyTemplate; ConditionTemplate; ParameterTemplate].
Inductive argument : cls -> field -> Prop :=
| a_name c : c <> IngredientRun -> c <> PerformedSource -> argument c Name
| a_notes c : an_object c \/ an_attribute c -> argument c Notes
| a_description c : a_template c -> argument c Description
| a_other c f k : ~ In f [Name; Notes; Description] -> contents c f k -> k <> Fixed -> argument c f.
