(** Model of gemd/entity/util.py: make_instance. *)
From Coq Require Import String List Bool Arith.
From Verif Require Import Base GraphModel TravModel.
Import ListNotations.
Open Scope string_scope.
Open Scope list_scope.

Definition obind {A B} (r : outcome A) (f : A -> outcome B) : outcome B :=
  match r with Done a => f a | Raised e => Raised e | Exhausted => Exhausted end.

Section Instance.
  (** Entity equality, as in [GraphModel]. *)
  Variable eq : heap -> pv -> oid -> bool.
  (** What the constructor of a class sets the attributes other than its references and its name to
      when their arguments are left out. *)
  Variable defaults : ekind -> list (string * pv).

  (** util.py:24: the runs made so far, by the identity of their specs. *)
  Definition seen := list (oid * oid).
  Definition seen_get (s : seen) (o : oid) : option oid := option_map snd (find (fun p => Nat.eqb (fst p) o) s).

  (** The class of the run of a spec of each class. *)
  Definition run_kind (k : ekind) : option ekind :=
    match k with
    | KMeasS => Some KMeasR | KMatS => Some KMatR | KIngS => Some KIngR | KProcS => Some KProcR
    | _ => None
    end.

  Definition assigned (r : heap * option exn) : outcome heap :=
    match r with (h, None) => Done h | (_, Some e) => Raised e end.

  (** [MaterialRun(name=spec.name, spec=spec)] and the like; an ingredient run has no name of its
      own (ingredient_run.py:72). *)
  Definition new_run (h : heap) (k : ekind) (spec : oid) : outcome heap :=
    let name := match k with KIngR => PNone | _ => read h spec "name" end in
    assigned (assign eq (h ++ [mkE k [] (blank k ++ ("name", name) :: defaults k)]) (length h) "spec" (PRef spec)).

  (** util.py:26-65. [n] bounds the depth of the recursion. Entities and links are always true as
      conditions. An item of [ingredients] whose run has no process, which the list's type check
      keeps out, is taken to raise. *)
  Fixpoint crawler (n : nat) (h : heap) (s : seen) (spec : pv) : outcome (oid * heap * seen) :=
    match n with
    | O => Exhausted
    | S n' =>
        match spec with
        | PRef o =>
            match seen_get s o with
            | Some r => Done (r, h, s)
            | None =>
                match kind_at h o with
                | Some KMeasS =>
                    obind (new_run h KMeasR o) (fun h1 => Done (length h, h1, s ++ [(o, length h)]))
                | Some KMatS =>
                    obind (new_run h KMatR o) (fun h1 =>
                    obind (match fval h1 o "process" with
                           | PNone => Done (PNone, h1, s ++ [(o, length h)])
                           | v => obind (crawler n' h1 (s ++ [(o, length h)]) v) (fun '(p, h2, s2) => Done (PRef p, h2, s2))
                           end) (fun '(v, h2, s2) =>
                    obind (assigned (assign eq h2 (length h) "process" v)) (fun h3 => Done (length h, h3, s2))))
                | Some KIngS =>
                    obind (new_run h KIngR o) (fun h1 =>
                    obind (match fval h1 o "material" with
                           | PNone => Done (PNone, h1, s ++ [(o, length h)])
                           | v => obind (crawler n' h1 (s ++ [(o, length h)]) v) (fun '(p, h2, s2) => Done (PRef p, h2, s2))
                           end) (fun '(v, h2, s2) =>
                    obind (assigned (assign eq h2 (length h) "material" v)) (fun h3 => Done (length h, h3, s2))))
                | Some KProcS =>
                    obind (new_run h KProcR o) (fun h1 =>
                    obind ((fix each (h : heap) (s : seen) (l : list pv) (p : oid) : outcome (heap * seen) :=
                              match l with
                              | [] => Done (h, s)
                              | x :: l' =>
                                  obind (crawler n' h s x) (fun '(r, h2, s2) =>
                                  obind (assigned (assign eq h2 r "process" (PRef p))) (fun h3 => each h3 s2 l' p))
                              end) h1 (s ++ [(o, length h)]) (match fval h1 o "ingredients" with PList l => l | _ => [] end) (length h))
                      (fun '(h2, s2) => Done (length h, h2, s2)))
                | _ => Raised TypeError
                end
            end
        | _ => Raised TypeError
        end
    end.

  (** util.py:9-67: the run made for [spec], and the graph afterwards. *)
  Definition make_instance (h : heap) (spec : pv) : outcome (oid * heap) :=
    obind (crawler (S (length h)) h [] spec) (fun '(r, h', _) => Done (r, h')).
End Instance.
