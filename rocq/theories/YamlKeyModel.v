(** Executable model of which key of a config file sets which field (/repo/conf/yaml.go:29-41
    yamlFileResolver.Resolve, the convention in /repo/conf/doc.go:110-122): the function getStructInfo (yaml.go) of
    gopkg.in/yaml.v3 in the version of /repo/go.mod, whose source is not in the repo.
    Simplifications: field names are ASCII; no inlined maps, no inlined types with an own UnmarshalYAML. *)
From Verif Require Import Common Bytes ConfNamesModel ConfsModel ConfLoadModel.
Local Open Scope string_scope.
Local Open Scope list_scope.

(** strings.ToLower *)
Fixpoint lower_name (s : string) : string :=
  match s with
  | String.EmptyString => ""
  | String.String c s' => String.String (lower_ascii c) (lower_name s')
  end.

(** The tag of field [i] of struct [s]: what "yaml" has in the tag, or the whole tag if there is no colon in it. *)
Definition ytags : Type := nat -> nat -> string.

(** The type below all pointers, if it is a struct. *)
Fixpoint base (t : ty) : option nat :=
  match t with
  | TPtr t' => base t'
  | TStruct s => Some s
  | _ => None
  end.

Definition keyed_list : Type := list (string * list nat).
Fixpoint find_key (l : keyed_list) (n : string) : option (list nat) :=
  match l with
  | [] => None
  | (k, idx) :: l' => if (k =? n)%string then Some idx else find_key l' n
  end.
(** Adding to fieldsMap and fieldsList; [None]: duplicated key. *)
Fixpoint add_keys (acc new : keyed_list) : option keyed_list :=
  match new with
  | [] => Some acc
  | (k, idx) :: new' =>
    match find_key acc k with
    | Some _ => None
    | None => add_keys (acc ++ [(k, idx)]) new'
    end
  end.

(** The keys of a struct with the fields they select; an error; [Deep]: the recursion is deeper than the fuel. *)
Inductive info := Info (l : keyed_list) | Bad | Deep.

Definition tag_flags : list string := ["omitempty"; "flow"; "inline"].
(** The loop over the fields; [sub]: the recursive call. *)
Fixpoint fields_info (sub : nat -> info) (tag : nat -> string) (i : nat) (fs : list field) (acc : keyed_list) : info :=
  match fs with
  | [] => Info acc
  | f :: fs' =>
    if negb (fexp f) && negb (fanon f) then fields_info sub tag (S i) fs' acc
    else if (tag i =? "-")%string then fields_info sub tag (S i) fs' acc
    else
      let parts := split "," (tag i) in
      let name := hd "" parts in
      if negb (forallb (fun x => existsb (String.eqb x) tag_flags) (tl parts)) then Bad
      else if existsb (String.eqb "inline") (tl parts) then
        match base (fty f) with
        | None => Bad
        | Some s' =>
          match sub s' with
          | Info l =>
            match add_keys acc (map (fun x => (fst x, i :: snd x)) l) with
            | Some acc' => fields_info sub tag (S i) fs' acc'
            | None => Bad
            end
          | r => r
          end
        end
      else
        match add_keys acc [(if (name =? "")%string then lower_name (fname f) else name, [i])] with
        | Some acc' => fields_info sub tag (S i) fs' acc'
        | None => Bad
        end
  end.
Fixpoint struct_info (fuel : nat) (tags : ytags) (E : tenv) (s : nat) : info :=
  match fuel with
  | O => Deep
  | S n => fields_info (struct_info n tags E) (tags s) 0 (E s) []
  end.

(** sinfo.FieldsMap[name] in mappingStruct; if getStructInfo fails, mappingStruct panics. *)
Definition yaml_key (fuel : nat) (tags : ytags) (E : tenv) (s : nat) (n : string) : option (list nat) :=
  match struct_info fuel tags E s with
  | Info l => find_key l n
  | _ => None
  end.
