(** * Samples: concrete classes, adapters and worlds used in the examples
    that show the theorems' hypotheses can be met. *)
From Verif Require Export SyncerDefs AdapterDefs.

(** A site has devices, a device has interfaces (as in examples/01 of the repo). *)
Definition c_site : cls :=
  mkCls "site" ["name"] [] ["region"] [("device", "devices")]
        [("name", None); ("region", Some VNone); ("note", Some VNone)] ["devices"] 0.
Definition c_device : cls :=
  mkCls "device" ["name"] [] ["role"; "serial"] [("interface", "interfaces")]
        [("name", None); ("role", Some VNone); ("serial", Some VNone)] ["interfaces"] 0.
Definition c_intf : cls :=
  mkCls "interface" ["device_name"; "name"] ["name"] ["mtu"] []
        [("device_name", None); ("name", None); ("mtu", Some (VInt 1500))] [] 0.

Definition mk_site (name region : string) (devs : list string) (fl : N) (a : aid) : obj :=
  mkObj c_site [("name", VStr name); ("region", VStr region); ("note", VNone)]
        [("devices", devs)] fl (Some a) StSuccess "".
Definition mk_device (name role : string) (intfs : list string) (fl : N) (a : aid) : obj :=
  mkObj c_device [("name", VStr name); ("role", VStr role); ("serial", VNone)]
        [("interfaces", intfs)] fl (Some a) StSuccess "".
Definition mk_intf (dev name : string) (mtu : Z) (fl : N) (a : aid) : obj :=
  mkObj c_intf [("device_name", VStr dev); ("name", VStr name); ("mtu", VInt mtu)] [] fl (Some a) StSuccess "".

Definition s_classes : dict cls := [("site", c_site); ("device", c_device); ("interface", c_intf)].
Definition mk_ad (name : string) (st : store) : adapter := mkAdapter name "Sample" ["site"] s_classes st.

(** Source (adapter 0): nyc{r1{eth0,eth1},r2}, sfo{}; destination (adapter 1):
    nyc{r1{eth0,lo},r3{eth9}}, lon{}. *)
Definition heap0 : list obj := [
  mk_site "nyc" "east" ["r1"; "r2"] 0 0;        (* 0 *)
  mk_device "r1" "edge" ["r1__eth0"; "r1__eth1"] 0 0;
  mk_device "r2" "core" [] 0 0;
  mk_intf "r1" "eth0" 9000 0 0;
  mk_intf "r1" "eth1" 1500 0 0;
  mk_site "sfo" "west" [] 0 0;                  (* 5 *)
  mk_site "nyc" "east" ["r1"; "r3"] 0 1;        (* 6 *)
  mk_device "r1" "leaf" ["r1__eth0"; "r1__lo"] 0 1;
  mk_device "r3" "core" ["r3__eth9"] 0 1;
  mk_intf "r1" "eth0" 1500 0 1;
  mk_intf "r1" "lo" 1500 0 1;                   (* 10 *)
  mk_intf "r3" "eth9" 1500 0 1;
  mk_site "lon" "uk" [] 0 1                     (* 12 *)
].
Definition src_data : dict (dict ref) := [
  ("site", [("nyc", 0); ("sfo", 5)]);
  ("device", [("r1", 1); ("r2", 2)]);
  ("interface", [("r1__eth0", 3); ("r1__eth1", 4)])].
Definition dst_data : dict (dict ref) := [
  ("site", [("nyc", 6); ("lon", 12)]);
  ("device", [("r1", 7); ("r3", 8)]);
  ("interface", [("r1__eth0", 9); ("r1__lo", 10); ("r3__eth9", 11)])].
Definition w0 : world :=
  mkWorld heap0 [mk_ad "src" (SLocal src_data); mk_ad "dst" (SLocal dst_data)] [] [].

(** The diff of that pair, and one of its elements *)
Definition d0 : diff :=
  match snd (diff_from 20 1 0 base_class 0 false w0) with Ok d => d | Err _ => empty_diff base_class end.
Definition e_r1 : elem :=
  mkElem "device" "r1" [("name", VStr "r1")] "src" "dst"
         (Some [("role", VStr "edge"); ("serial", VNone); ("only_src", VInt 1)])
         (Some [("asset", VInt 7); ("role", VStr "leaf"); ("serial", VNone)]) [].

(** An ordering hook: reverse order *)
Definition order_reverse : order_fn := fun _ l => rev (seq 0 (length l)).
