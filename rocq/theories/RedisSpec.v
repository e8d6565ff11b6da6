(** * RedisSpec: the vocabulary of the RedisStore properties.

    A Redis server shared by several stores is specified as a flat register of
    entries (store id, type, uid, snapshot) in order of insertion. *)
From Coq Require Import Ascii String List.
From Verif Require Export StoreSpec.
Import ListNotations.
Open Scope string_scope.
Open Scope list_scope.

Definition rkey := (string * string * string)%type.
Definition rreg := list (rkey * obj).

Definition rkey_eqb (i t u : string) (e : rkey * obj) : bool :=
  String.eqb i (fst (fst (fst e))) && String.eqb t (snd (fst (fst e))) && String.eqb u (snd (fst e)).
Definition rfind (l : rreg) (i t u : string) : option obj := option_map snd (find (rkey_eqb i t u) l).
(** replace in place, or append *)
Definition rput (l : rreg) (i t u : string) (o : obj) : rreg :=
  match find (rkey_eqb i t u) l with
  | Some _ => map (fun e : rkey * obj => if rkey_eqb i t u e then (i, t, u, o) else e) l
  | None => l ++ [(i, t, u, o)]
  end.
Definition rdel (l : rreg) (i t u : string) : rreg := filter (fun e : rkey * obj => negb (rkey_eqb i t u e)) l.
(** the entries of one store, and its snapshots of one type, in order of insertion *)
Definition rstore (l : rreg) (i : string) : rreg := filter (fun e : rkey * obj => String.eqb i (fst (fst (fst e)))) l.
Definition rtype (l : rreg) (i t : string) : list obj :=
  map snd (filter (fun e : rkey * obj => String.eqb t (snd (fst (fst e)))) (rstore l i)).

(** A snapshot is the object without its adapter; reading gives a copy attached to the reader *)
Definition snapshot (o : obj) : obj := set_o_adapter o None.
Definition given_to (a : aid) (o : obj) : obj := set_o_adapter o (Some a).

(** What a caller sees: the contents of the objects returned *)
Inductive seen := VUnit | VObj (o : option obj) | VOpt (o : option obj) | VObjs (l : list (option obj)) | VNat (n : nat).
Definition view (h : list obj) (x : out) : seen :=
  match x with
  | OUnit => VUnit
  | ORef r => VObj (nth_error h r)
  | OOpt None => VOpt None
  | OOpt (Some r) => VOpt (nth_error h r)
  | ORefs l => VObjs (map (nth_error h) l)
  | ONat n => VNat n
  end.
Definition rres (h : list obj) (x : result out) : result seen :=
  match x with Ok y => Ok (view h y) | Err e => Err e end.
Definition rexec (a : aid) (op : sop) (w : world) : world * result seen :=
  let (w1, x) := exec a op w in (w1, rres (w_heap w1) x).
(** a history: calls by any of the adapters *)
Fixpoint rexec_all (ops : list (aid * sop)) (w : world) : world * list (result seen) :=
  match ops with
  | [] => (w, [])
  | (a, op) :: ops' => let (w1, o) := rexec a op w in let (w2, os) := rexec_all ops' w1 in (w2, o :: os)
  end.

(** What each call of the adapter [a] with store id [i] does to the register *)
Definition rwith_key (h : list obj) (l : rreg) (r : ref) (k : obj -> string -> string -> rreg * result seen) :
  rreg * result seen :=
  match nth_error h r with
  | None => (l, Err DanglingRef)
  | Some o => match get_unique_id o with
              | Err e => (l, Err e)
              | Ok u => k o (get_type o) u
              end
  end.
Fixpoint rfind_all (l : rreg) (i t : string) (us : list string) : result (list obj) :=
  match us with
  | [] => Ok []
  | u :: us' => match rfind l i t u with
                | None => Err ObjectNotFound
                | Some r => rbind (rfind_all l i t us') (fun rs => Ok (r :: rs))
                end
  end.
Definition rspec (a : aid) (i : string) (h : list obj) (l : rreg) (op : sop) : rreg * result seen :=
  match op with
  | SAdd r => rwith_key h l r (fun o t u =>
                match rfind l i t u with
                | None => (l ++ [(i, t, u, snapshot o)], Ok VUnit)
                | Some x => (l, if dump_eq x o then Ok VUnit else Err ObjectAlreadyExists)
                end)
  | SUpdate r => rwith_key h l r (fun o t u => (rput l i t u (snapshot o), Ok VUnit))
  | SRemove r => rwith_key h l r (fun _ t u =>
                   match rfind l i t u with
                   | None => (l, Err ObjectNotFound)
                   | Some _ => (rdel l i t u, Ok VUnit)
                   end)
  | SRemoveItem t u => match rfind l i t u with
                       | None => (l, Err ObjectNotFound)
                       | Some _ => (rdel l i t u, Ok VUnit)
                       end
  | SGet t u => (l, match rfind l i t u with Some o => Ok (VObj (Some (given_to a o))) | None => Err ObjectNotFound end)
  | SGetOrNone t u => (l, Ok (VOpt (option_map (given_to a) (rfind l i t u))))
  | SGetAll t => (l, Ok (VObjs (map (fun o => Some (given_to a o)) (rtype l i t))))
  | SByUids us t => (l, rbind (rfind_all l i t us) (fun os => Ok (VObjs (map (fun o => Some (given_to a o)) os))))
  | SCount => (l, Ok (VNat (length (rstore l i))))
  | SNew o => (l, Ok (VObj (Some o)))
  | SAssign r o => (l, Ok VUnit)
  end.
Definition store_id (w : world) (a : aid) : string :=
  match nth_error (w_ads w) a with
  | Some ad => match ad_store ad with SRedis i => i | SLocal _ => "" end
  | None => ""
  end.
Fixpoint rspec_all (ops : list (aid * sop)) (w : world) (l : rreg) : rreg * list (result seen) :=
  match ops with
  | [] => (l, [])
  | (a, op) :: ops' => let (l1, o) := rspec a (store_id w a) (w_heap w) l op in
                       let (l2, os) := rspec_all ops' (fst (exec a op w)) l1 in (l2, o :: os)
  end.

(** ** Names that keep keys apart: no ':' and no character special to glob patterns *)
Definition special (c : Ascii.ascii) : bool :=
  existsb (Ascii.eqb c) [":"%char; "*"%char; "?"%char; "["%char; "]"%char; "\"%char].
Fixpoint plain (s : string) : bool :=
  match s with EmptyString => true | String c s' => negb (special c) && plain s' end.

(** the server holds exactly the entries [l] *)
Definition server_holds (w : world) (l : rreg) : Prop :=
  w_redis w = map (fun e : rkey * obj => (redis_key (fst (fst (fst e))) (snd (fst (fst e))) (snd (fst e)), snd e)) l /\
  NoDup (map fst l) /\
  Forall (fun e : rkey * obj => plain (fst (fst (fst e))) = true /\ plain (snd (fst (fst e))) = true /\ get_type (snd e) = snd (fst (fst e))) l.
Definition on_plain_redis (w : world) (a : aid) : Prop :=
  exists ad i, nth_error (w_ads w) a = Some ad /\ ad_store ad = SRedis i /\ plain i = true.
Definition plain_objects (w : world) : Prop := Forall (fun o => plain (get_type o) = true) (w_heap w).
Definition op_plain (op : sop) : Prop :=
  match op with
  | SRemoveItem t _ | SGet t _ | SGetOrNone t _ | SGetAll t | SByUids _ t => plain t = true
  | SNew o | SAssign _ o => plain (get_type o) = true
  | SAdd _ | SUpdate _ | SRemove _ | SCount => True
  end.
(** the calls that only read *)
Definition reads (op : sop) : Prop :=
  match op with
  | SGet _ _ | SGetOrNone _ _ | SGetAll _ | SByUids _ _ | SCount => True
  | _ => False
  end.
Definition has_redis (w : world) (a : aid) : Prop :=
  exists ad i, nth_error (w_ads w) a = Some ad /\ ad_store ad = SRedis i.
(** the snapshot stored under a key (RedisStore) *)
Definition stored (w : world) (a : aid) (t u : string) : option obj :=
  dget (w_redis w) (redis_key (store_id w a) t u).

(** ** C31: the Redis commands of a call, one at a time *)
Inductive prog :=
| PGet (key : string) (k : option obj -> prog)     (* self._store.get(key) *)
| PSet (key : string) (o : obj) (k : prog)         (* self._store.set(key, ...) *)
| PEnd (r : result unit).
(** store/redis.py:154-184 [add]: GET, then SET or nothing *)
Definition add_prog (key : string) (o : obj) : prog :=
  PGet key (fun x => match x with
                     | Some existing => PEnd (if dump_eq existing o then Ok tt else Err ObjectAlreadyExists)
                     | None => PSet key (set_o_adapter o None) (PEnd (Ok tt))
                     end).
(** one command of a program *)
Inductive pstep : dict obj * prog -> dict obj * prog -> Prop :=
| step_get d key k : pstep (d, PGet key k) (d, k (dget d key))
| step_set d key o k : pstep (d, PSet key o k) (dset d key o, k).
(** two workers: each step is a step of one of them *)
Inductive pstep2 : dict obj * prog * prog -> dict obj * prog * prog -> Prop :=
| step_left d d' p p' q : pstep (d, p) (d', p') -> pstep2 (d, p, q) (d', p', q)
| step_right d d' p q q' : pstep (d, q) (d', q') -> pstep2 (d, p, q) (d', p, q').
Inductive pruns2 : dict obj * prog * prog -> dict obj * prog * prog -> Prop :=
| runs_none s : pruns2 s s
| runs_step s s' s'' : pstep2 s s' -> pruns2 s' s'' -> pruns2 s s''.
Inductive pruns : dict obj * prog -> dict obj * prog -> Prop :=
| run_none s : pruns s s
| run_step s s' s'' : pstep s s' -> pruns s' s'' -> pruns s s''.
(** field names are unique, as in any Python object *)
Definition dict_ok (o : obj) : Prop := NoDup (dkeys (o_vals o)) /\ NoDup (dkeys (o_kids o)).
