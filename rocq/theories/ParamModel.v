(** Model of how the two nodes read their parameters: roscpp's NodeHandle::param and getParam, and XmlRpcValue.
    Definitions only. *)
From Coq Require Import ZArith List Bool String.
From Verif Require Import Outcome Num GridModel CollisionModel NumericsModel BasisModel ErgodicModel ExplorationModel.
Import ListNotations.
Local Open Scope string_scope.

Section Params.
Context {T : Type} {NT : Num T}.

(** XmlRpc::XmlRpcValue.  [XOther] is any other type, with its size() if it has one (strings, binary data, structs). *)
Inductive xml := XInvalid | XBool (b : bool) | XInt (z : Z) | XDouble (x : T) | XArray (l : list xml) | XOther (n : option nat).
(** The private name space of the node on the parameter server. *)
Definition server := string -> option xml.

(** getParam(name, double&): an int is converted, any other type counts as absent; param() then takes the default. *)
Definition get_double (s : server) (name : string) (dflt : T) : T :=
  match s name with Some (XDouble x) => x | Some (XInt z) => nofZ z | _ => dflt end.
(** getParam(name, int&): a double is replaced by floor or ceil according to fmod(d, 1.0) < 0.5 and converted.
    fmod(d, 1.0) is d minus its truncation, without rounding. *)
Definition int_of_double (d : T) : res Z :=
  match ntrunc d with
  | Some z => to_int (if (d - nofZ z <? lit 1 2)%num then nfloor d else (- nfloor (- d))%num)
  | None => UB UFloatCast
  end.
Definition get_int (s : server) (name : string) (dflt : Z) : res Z :=
  match s name with Some (XInt z) => Ok z | Some (XDouble d) => int_of_double d | _ => Ok dflt end.
(** const unsigned int x = pnh.param(name, int) *)
Definition get_uint (s : server) (name : string) (dflt : Z) : res Z := let* z := get_int s name dflt in Ok (u32 z).

(** getParam(name, std::vector<double>&): nothing happens unless the value is an array; then the vector gets the length of
    the array and is filled up to the first element that is not a number. *)
Definition number (x : xml) : option T :=
  match x with XDouble x => Some x | XInt z => Some (nofZ z) | XBool b => Some (nofZ (if b then 1 else 0)) | _ => None end.
Fixpoint fill (vec : list T) (l : list xml) : list T :=
  match vec, l with
  | v :: vec', x :: l' => match number x with Some y => y :: fill vec' l' | None => vec end
  | _, _ => vec
  end.
Definition resize (n : nat) (vec : list T) : list T := firstn n vec ++ repeat n0 (n - List.length vec).
Definition get_vector (s : server) (name : string) (dflt : list T) : list T :=
  match s name with Some (XArray l) => fill (resize (List.length l) dflt) l | _ => dflt end.

(** getParam(name, XmlRpcValue&) into a fresh value *)
Definition get_xml (s : server) (name : string) : xml := match s name with Some x => x | None => XInvalid end.
(** XmlRpcValue::size, operator[](int), which extends arrays and turns invalid values into arrays, and operator double&,
    which accepts invalid values: then a member of the union is read that was never set. *)
Definition xml_size (x : xml) : res nat :=
  match x with XArray l => Ok (List.length l) | XOther (Some n) => Ok n | _ => Throw EXmlRpc end.
Definition xml_at (x : xml) (i : nat) : res xml :=
  match x with
  | XArray l => Ok (nth i l XInvalid)
  | XInvalid => Ok XInvalid
  | _ => Throw EXmlRpc
  end.
Definition xml_double (x : xml) : res T :=
  match x with XDouble x => Ok x | XInvalid => UB UUninit | _ => Throw EXmlRpc end.
Definition xml_pair (x : xml) (i : nat) : res (T * T) :=
  let* p := xml_at x i in
  let* a := xml_at p 0 in
  let* a := xml_double a in
  let* b := xml_at p 1 in
  let* b := xml_double b in
  Ok (a, b).
(** exploration_cart_node.cpp:182-187 (and omni: 188-193): the loop, [k] targets being left; each target is constructed
    before the next one is read *)
Fixpoint read_targets (means sigmas : xml) (i k : nat) : res (list ((T * T) * (T * T))) :=
  match k with
  | O => Ok []
  | S k =>
      let* mu := xml_pair means i in
      let* sigma := xml_pair sigmas i in
      let* _ := gaussian_ctor mu sigma in
      let* l := read_targets means sigmas (S i) k in
      Ok ((mu, sigma) :: l)
  end.

(** exploration_cart_node.cpp:121-187.  The cart node has no parameters for y; [weights] and [rows] are the default
    control weights and the number of them that is used.  The parameters are read in the order of the code as far as
    that matters, that is those whose reading can fail. *)
Definition read_params (s : server) (weights : list T) (rows : nat) (omni : bool) : res (params T) :=
  let d := get_double s in
  let y name p := if omni then d name p else n0 in
  let* num_basis := get_uint s "num_basis" 10 in
  let* buffer_size := to_u32 (d "buffer_size" (nofZ 1000000)) in
  let* batch_size := get_uint s "batch_size" 100 in
  let control_weights := get_vector s "control_weights" weights in
  if (List.length control_weights <? rows)%nat then Throw EOutOfRange else
  let* vx_samples := get_uint s "vx_samples" 3 in
  let* vy_samples := (if omni then get_uint s "vy_samples" 8 else Ok 0%Z) in
  let* vth_samples := get_uint s "vth_samples" 5 in
  let means := get_xml s "means" in
  let sigmas := get_xml s "sigmas" in
  let* k := xml_size means in
  let* gaussians := read_targets means sigmas 0 k in
  Ok (mkParams (d "val_dt" (lit 1 10)) (d "val_horizon" (lit 1 2))
    (d "max_vel_x" n1) (y "max_vel_y" n1) (d "max_rot_vel" n1)
    (d "min_vel_x" (nofZ (-1))) (y "min_vel_y" (nofZ (-1))) (d "min_rot_vel" (nofZ (-1)))
    (d "acc_lim_x" n1) (y "acc_lim_y" n1) (d "acc_lim_th" n1)
    (d "boundary_radius" (lit 7 10)) (d "search_radius" n1) (d "obstacle_threshold" (lit 2 10)) (d "occupied_threshold" (lit 8 10))
    (d "ec_dt" (lit 1 10)) (d "ec_horizon" n2) (d "target_resolution" (lit 1 10)) (d "expl_weight" n1)
    num_basis buffer_size batch_size control_weights
    (d "dwa_dt" (lit 1 10)) (d "dwa_horizon" n1) (d "acc_dt" (lit 2 10)) vx_samples vy_samples vth_samples gaussians).

(** exploration_cart_node.cpp:98-208, exploration_omni_node.cpp:100-213 *)
Definition cart_main (s : server) : res (setup T) := let* p := read_params s [n1; n1] 2 false in cart_node p.
Definition omni_main (s : server) : res (setup T) := let* p := read_params s [n1; n1; n1] 3 true in omni_node p.
End Params.
Arguments xml T : clear implicits.
Arguments server T : clear implicits.
