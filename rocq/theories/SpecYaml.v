(** * Specification: documents, the events a YAML parser reports for them, and what the parser's
    objects stand for.  Independent of the code under test, except that the objects are those of the
    model of the heap. *)
From Verif Require Import Base Value YamlParser.
Open Scope list_scope.

(** a scalar as it is written: where, the text, and if it is plain (neither quoted nor tagged) *)
Definition scalar : Type := (position * str * bool)%type.
(** a document or a part of it; the keys of mappings are scalars *)
Inductive tree :=
| TScalar (x : scalar)
| TMap (p : position) (items : list (scalar * tree))
| TSeq (p : position) (items : list tree).

(** the events for it (PyYAML, [yaml.events]) *)
Definition scalar_event (x : scalar) : event := Scalar (fst (fst x)) (snd (fst x)) (snd x).
Fixpoint events (t : tree) : list event :=
  match t with
  | TScalar x => [scalar_event x]
  | TMap p items => MappingStart p :: flat_map (fun kv => scalar_event (fst kv) :: events (snd kv)) items ++ [MappingEnd]
  | TSeq p items => SequenceStart p :: flat_map events items ++ [SequenceEnd]
  end.
Definition stream (docs : list tree) : list event :=
  StreamStart :: flat_map (fun t => DocumentStart :: events t ++ [DocumentEnd]) docs ++ [StreamEnd].

(** what a document means: values with the positions where they were written *)
Inductive node :=
| NScalar (p : position) (v : value)
| NMap (p : position) (items : list ((position * value) * node))
| NSeq (p : position) (items : list node).
(** The items of a mapping: if a key is written again, it stays where it is and its value is the last one. *)
Fixpoint last_value (k : position * value) (n : node) (l : list ((position * value) * node)) : list ((position * value) * node) :=
  match l with
  | [] => [(k, n)]
  | (k', n') :: l' => if value_eqb (snd k') (snd k) then (k', n) :: l' else (k', n') :: last_value k n l'
  end.
Definition last_values (l items : list ((position * value) * node)) : list ((position * value) * node) :=
  fold_left (fun l kn => last_value (fst kn) (snd kn) l) items l.
Section Meaning.
(** the value of a scalar *)
Variable convert : str -> bool -> value.
Definition scalar_value (x : scalar) : position * value := (fst (fst x), convert (snd (fst x)) (snd x)).
Fixpoint meaning (t : tree) : node :=
  match t with
  | TScalar x => NScalar (fst (scalar_value x)) (snd (scalar_value x))
  | TMap p items => NMap p (last_values [] (map (fun kv => (scalar_value (fst kv), meaning (snd kv))) items))
  | TSeq p items => NSeq p (map meaning items)
  end.
End Meaning.
Definition is_collection (t : tree) : Prop := match t with TScalar _ => False | _ => True end.

(** the object [i] of the heap stands for [n] *)
Fixpoint stands_for (h : heap) (i : nat) (n : node) {struct n} : Prop :=
  match n with
  | NScalar p v => nth_error h i = Some (p, CScalar v)
  | NMap p items => exists l, nth_error h i = Some (p, CMap l) /\
      (fix all l items {struct items} := match l, items with
         | [], [] => True
         | (k, j) :: l', ((pk, v), n') :: items' =>
             nth_error h k = Some (pk, CScalar v) /\ stands_for h j n' /\ all l' items'
         | _, _ => False
         end) l items
  | NSeq p items => exists l, nth_error h i = Some (p, CSeq l) /\
      (fix all l items {struct items} := match l, items with
         | [], [] => True
         | j :: l', n' :: items' => stands_for h j n' /\ all l' items'
         | _, _ => False
         end) l items
  end.

(** all scalars of a document *)
Fixpoint scalars (t : tree) : list scalar :=
  match t with
  | TScalar x => [x]
  | TMap _ items => flat_map (fun kv => fst kv :: scalars (snd kv)) items
  | TSeq _ items => flat_map scalars items
  end.
(** the value without the positions *)
Fixpoint erase (n : node) : value :=
  match n with
  | NScalar _ v => v
  | NMap _ items => VDict (map (fun kv => (snd (fst kv), erase (snd kv))) items)
  | NSeq _ items => VList (map erase items)
  end.
