(** What make_instance should do. *)
From Coq Require Import String List Bool Arith.
From Verif Require Import Base GraphModel GraphSpec.
Import ListNotations.
Open Scope string_scope.
Open Scope list_scope.

(** One step through a graph of specs: to the process of a material, the ingredients of a process, the
    material of an ingredient. *)
Inductive spec_step (h : heap) : oid -> oid -> Prop :=
| ss_process : forall m p, kind_at h m = Some KMatS -> fval h m "process" = PRef p -> spec_step h m p
| ss_material : forall x m, kind_at h x = Some KIngS -> fval h x "material" = PRef m -> spec_step h x m
| ss_ingredient : forall p l x, kind_at h p = Some KProcS -> fval h p "ingredients" = PList l -> In (PRef x) l -> spec_step h p x.

Inductive reaches (h : heap) (root : oid) : oid -> Prop :=
| rs_here : reaches h root root
| rs_step : forall a b, reaches h root a -> spec_step h a b -> reaches h root b.

(** On the way there is a link instead of an object. *)
Definition link_on_the_way (h : heap) (root : oid) : Prop :=
  exists o s i, reaches h root o /\
    ((kind_at h o = Some KMatS /\ fval h o "process" = PLink s i) \/ (kind_at h o = Some KIngS /\ fval h o "material" = PLink s i)).

(** The class of the runs of each class of specs. *)
Definition run_class (k rk : ekind) : Prop :=
  In (k, rk) [(KMatS, KMatR); (KProcS, KProcR); (KMeasS, KMeasR); (KIngS, KIngR)].

Definition is_spec (h : heap) (o : oid) : Prop := exists k rk, kind_at h o = Some k /\ run_class k rk.

(** The references of the specs are None, links, or of the right class, as the setters make them. *)
Definition refs_typed (h : heap) : Prop :=
  forall o k f pk, kind_at h o = Some k -> asked_kind k f pk -> well_typed h o f (fval h o f).

(** The reference [w] of a run mirrors the reference [v] of its spec: the run of what [v] refers to, or None
    if [v] refers to nothing that has a run. *)
Definition mirror (run : oid -> oid -> Prop) (v w : pv) : Prop :=
  (exists p q, v = PRef p /\ w = PRef q /\ run p q) \/ (w = PNone /\ forall p q, v = PRef p -> ~ run p q).

(** [run] pairs the specs reachable from [root] with the entities that are new in [g], one to one; [r] is
    the run of [root]; the entities of [h] are unchanged. *)
Record instance (h : heap) (root : oid) (g : heap) (r : oid) (run : oid -> oid -> Prop) : Prop := mkInstance {
  in_root : run root r;
  in_specs : forall o, reaches h root o <-> exists c, run o c;
  in_new : forall c, (length h <= c /\ c < length g) <-> exists o, run o c;
  in_fun : forall o c c', run o c -> run o c' -> c = c';
  in_inj : forall o o' c, run o c -> run o' c -> o = o';
  in_old : forall o, o < length h -> hget g o = hget h o;
  in_class : forall o c, run o c -> exists k rk, kind_at h o = Some k /\ kind_at g c = Some rk /\ run_class k rk;
  in_spec : forall o c, run o c -> fval g c "spec" = PRef o;
  in_name : forall o c, run o c -> read g c "name" = read h o "name";
  in_process : forall m c, run m c -> kind_at h m = Some KMatS -> mirror run (fval h m "process") (fval g c "process");
  in_output : forall p c, run p c -> kind_at h p = Some KProcS -> mirror run (fval h p "output_material") (fval g c "output_material");
  in_ingredients : forall p c l, run p c -> kind_at h p = Some KProcS -> fval h p "ingredients" = PList (map PRef l) ->
    exists l', fval g c "ingredients" = PList (map PRef l') /\ Forall2 run l l';
  in_material : forall x c, run x c -> kind_at h x = Some KIngS -> mirror run (fval h x "material") (fval g c "material");
  in_user : forall x c, run x c -> kind_at h x = Some KIngS -> mirror run (fval h x "process") (fval g c "process");
  in_measurements : forall m c, run m c -> kind_at h m = Some KMatS -> fval g c "measurements" = PList [];
  in_measured : forall o c, run o c -> kind_at h o = Some KMeasS -> fval g c "material" = PNone;
  in_uids : forall o c e, run o c -> hget g c = Some e -> e_uids e = []
}.
