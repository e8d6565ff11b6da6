(** * TextDefs: names and textual presentations of adapters and models. *)
From Verif Require Export StoreDefs.

(** __init__.py:444-464 [Adapter.__init__]: [class_type] is the class attribute [type], [store] the
    storage engine given as an instance or created here. *)
Definition adapter_init (class_name : string) (class_type : option string) (top : list string) (classes : dict cls)
    (name : option string) (st : store) : adapter :=
  let ty := match class_type with Some t => t | None => class_name end in
  let nm := match name with Some (String c n) => String c n | _ => ty end in     (* [name if name else self.type] *)
  mkAdapter nm ty top classes st.

(** __init__.py:498-506 [Adapter.__str__], [Adapter.__repr__] *)
Definition ad_str (ad : adapter) : string :=
  if String.eqb (ad_type ad) (ad_name ad) then ad_type ad
  else (ad_type ad ++ " """ ++ ad_name ad ++ """")%string.
Definition ad_repr (ad : adapter) : string := ("<" ++ ad_str ad ++ ">")%string.

(** __init__.py:161-167 [DiffSyncModel.__repr__], [DiffSyncModel.__str__] *)
Definition model_repr (o : obj) : result string :=
  rbind (get_unique_id o) (fun u => Ok (get_type o ++ " """ ++ u ++ """")%string).
Definition model_dunder_str (o : obj) : result string := get_unique_id o.

Fixpoint foldM {S A B} (l : list A) (f : B -> A -> M S B) (b : B) : M S B :=
  match l with
  | [] => ret b
  | x :: l' => b' <- f b x ;; foldM l' f b'
  end.

(** __init__.py:183-201 [DiffSyncModel.str].  Fuel: Python's recursion limit. *)
Fixpoint model_str (fuel : nat) (r : ref) (include_children : bool) (indent : nat) : M world string :=
  match fuel with
  | O => raise ExnRecursionError
  | S fuel' =>
      let margin := spaces indent in
      o <- hget r ;;
      uid <- lift (get_unique_id o) ;;
      foldM (get_children_mapping o) (fun output tf =>
        child_ids <- lift (getattr_kids o (snd tf)) ;;
        let output := (output ++ newline ++ margin ++ "  " ++ snd tf)%string in
        w <- get_state ;;
        match child_ids, o_adapter o with
        | [], _ => ret (output ++ ": []")%string
        | _, Some b =>
            if adapter_truthy w (o_adapter o) && include_children then
              foldM child_ids (fun output child_id =>
                try_catch
                  (c <- st_get b (MName (fst tf)) (IdStr child_id) ;;
                   s <- model_str fuel' c include_children (indent + 4) ;;
                   ret (output ++ newline ++ s)%string)
                  is_not_found
                  (fun _ => ret (output ++ newline ++ margin ++ "    " ++ child_id ++ " (ERROR: details unavailable)")%string))
                output
            else ret (output ++ ": " ++ py_repr (VList (map VStr child_ids)))%string
        | _, None => ret (output ++ ": " ++ py_repr (VList (map VStr child_ids)))%string
        end)
        (margin ++ get_type o ++ ": " ++ uid ++ ": " ++ dict_str (get_attrs o))%string
  end.

(** __init__.py:545-559 [Adapter.str] *)
Definition adapter_str (fuel : nat) (a : aid) (indent : nat) : M world string :=
  let margin := spaces indent in
  ad <- get_adapter a ;;
  foldM (ad_top ad) (fun output modelname =>
    let output := match output with "" => output | _ => (output ++ newline)%string end in
    let output := (output ++ margin ++ modelname)%string in
    models <- st_get_all a (MName modelname) ;;
    match models with
    | [] => ret (output ++ ": []")%string
    | _ => foldM models (fun output r => s <- model_str fuel r true (indent + 2) ;; ret (output ++ newline ++ s)%string) output
    end) "".
