(* Linking the compiled units into an image, cc/link.cpp, and loading an image,
   utils/utils.cpp:277-380 wr_createContext.

   Simplifications: the symbol block and the source text that WR_EMBED_DEBUG_CODE and
   WR_EMBED_SOURCE_CODE put in the image are arguments; debug symbols inside the code are off, so the
   code word before a call is not patched.  An access outside the code is the outcome UB.  Allocation
   does not fail, and the tables of the loaded context are lists. *)
From Verif Require Import Base HashModel ContModel OpsModel VmModel EmitModel CcModel.

Definition put2 (l : list Z) (i v : Z) : cres (list Z) :=
  l1 <~ put l i (u8 v) ;; put l1 (i + 1) (u8 (v / 256)).

(* link.cpp:34-72 createLocalHashMap.  With more than 255 locals the 8 bit counter never reaches the end. *)
Fixpoint offsets_set (hs : list Z) (i : Z) (t : tab Z) : cres (tab Z) :=
  match hs with
  | [] => COk t
  | h :: r => match t_set 0 h (u8 i) t with Some t' => offsets_set r (i + 1) t' | None => CUB end
  end.
Definition local_map (u : cunit) : cres (list Z) :=
  let locals := b_locals (u_code u) in
  if lenZ locals =? 0 then COk []
  else if 255 <? lenZ locals then CUB
  else
    match t_init 0 0 with
    | None => CUB
    | Some t =>
      t <~ offsets_set (skipn (Z.to_nat (u_args u)) locals) 0 t ;;
      COk ([u8 (lenZ locals - u_args u); u8 (u_args u)] ++ wr_pack16 (tmod t) ++
           flat_map (fun n => wr_pack32 (fst n) ++ [if fst n =? NULL_HASH then 255 else snd n]) (ContModel.tl t))
    end.

(* link.cpp:98-131: one function signature *)
Definition frame_of (u : cunit) : Z := lenZ (b_locals (u_code u)) - u_args u.
Definition signature (u : cunit) : cres (list Z) :=
  let args := u8 (u_args u) in
  let frame := u32 (frame_of u) in
  if 255 <? frame then CErr E_compiler_panic
  else COk ([170; 187; 204; 221] ++ wr_pack32 (u_hash u) ++ [args; frame; u8 (1 + args + frame)]).
Fixpoint signatures (us : list cunit) (code : list Z) : cres (list Z) :=
  match us with [] => COk code | u :: r => s <~ signature u ;; signatures r (code ++ s) end.

(* wrench.h:316-322 *)
Definition has (flags bit : Z) : bool := negb (Z.land flags bit =? 0).
Definition WR_EMBED_DEBUG_CODE := 2.
Definition WR_EMBED_SOURCE_CODE := 4.
Definition WR_INCLUDE_GLOBALS := 1.
(* link.cpp:83-185: everything before the code *)
Definition header (main : bcode) (us : list cunit) (flags : Z) (symbols source : list Z) : cres (list Z) :=
  let globals := lenZ (b_locals main) in
  if 255 <? globals then CErr E_compiler_panic
  else if 255 <? lenZ us then CErr E_compiler_panic
  else
    code <~ signatures us [u8 globals; u8 (lenZ us); u8 flags] ;;
    let code := if has flags WR_INCLUDE_GLOBALS then code ++ flat_map wr_pack32 (b_locals main) else code in
    let debug := has flags WR_EMBED_DEBUG_CODE || has flags WR_EMBED_SOURCE_CODE in
    if debug && (65535 <? lenZ symbols) then CErr E_compiler_panic
    else
      let code := if debug then code ++ wr_pack32 (wr_hash source 0) ++ wr_pack16 (lenZ symbols) ++ symbols else code in
      COk (if has flags WR_EMBED_SOURCE_CODE then code ++ wr_pack32 (lenZ source) ++ source else code).

(* link.cpp:187-208: the units a "new" refers to are exported; only the first of a name *)
Fixpoint export_first (h : Z) (us : list cunit) : list cunit :=
  match us with
  | [] => []
  | u :: r => if u_hash u =? h then mkU (u_hash u) (u_args u) true (u_code u) :: r else u :: export_first h r
  end.
Definition export_of (b : bcode) (us : list cunit) : list cunit :=
  fold_left (fun us o => match snd o with [] => us | _ => export_first (fst o) us end) (b_objs b) us.
Definition exports (main : bcode) (us : list cunit) : list cunit :=
  fold_left (fun acc u => export_of (u_code u) acc) us (export_of main us).

(* link.cpp:258-296: the relative jumps of the gotos of one unit *)
Definition goto_one (js : list jtarget) (g : Z * Z) (l : list Z) : cres (list Z) :=
  match find (fun j => j_goto j =? fst g) js with
  | None => CErr E_goto_target_not_found
  | Some j =>
    let diff := j_off j - snd g - 2 in
    if (diff <? 128) && (-129 <? diff) then
      l1 <~ put l (snd g) (byte_of O_RelativeJump8) ;; put l1 (snd g + 1) (u8 diff)
    else if (diff <? -32768) || (32767 <? diff) then CErr E_bad_goto_location
    else l1 <~ put l (snd g) (byte_of O_RelativeJump) ;; put2 l1 (snd g + 1) diff
  end.
Fixpoint goto_all (js : list jtarget) (gs : list (Z * Z)) (l : list Z) : cres (list Z) :=
  match gs with [] => COk l | g :: r => l1 <~ goto_one js g l ;; goto_all js r l1 end.

(* the first unit of that name, counted from 0 *)
Fixpoint unit_index (h : Z) (us : list cunit) (i : Z) : option Z :=
  match us with [] => None | u :: r => if u_hash u =? h then Some i else unit_index h r (i + 1) end.
(* wr_hashStr("yield") *)
Definition yield_hash : Z := wr_hash [121; 105; 101; 108; 100] 0.
Definition get (l : list Z) (i : Z) : cres Z := match nthZ l i with Some x => COk x | None => CUB end.
(* link.cpp:326-391: one call *)
Definition call_one (us : list cunit) (h index : Z) (l : list Z) : cres (list Z) :=
  match unit_index h us 0 with
  | Some i =>
    l <~ put l index (byte_of O_CallFunctionByIndex) ;;
    l <~ put l (index + 2) (u8 i) ;;
    a <~ get l (index + 5) ;;
    pop <~ (if a =? byte_of O_PopOne then COk true
            else b <~ get l (index + 6) ;; COk (b =? byte_of O_NewObjectTable)) ;;
    if (pop : bool) then put l (index + 3) 3
    else l <~ put l (index + 3) 2 ;; put l (index + 5) (byte_of O_PushIndexFunctionReturnValue)
  | None =>
    if h =? yield_hash then put l index (byte_of O_Yield)
    else
      a <~ get l (index + 5) ;;
      l <~ put l index (byte_of (if a =? byte_of O_PopOne then O_CallFunctionByHashAndPop else O_CallFunctionByHash)) ;;
      l <~ put2 l (index + 2) h ;; put2 l (index + 4) (h / 65536)
  end.
Fixpoint call_refs (us : list cunit) (h base : Z) (rs : list Z) (l : list Z) : cres (list Z) :=
  match rs with [] => COk l | r :: t => l1 <~ call_one us h (base + r) l ;; call_refs us h base t l1 end.
Fixpoint call_all (us : list cunit) (base : Z) (fs : list (Z * list Z)) (l : list Z) : cres (list Z) :=
  match fs with [] => COk l | (h, rs) :: t => l1 <~ call_refs us h base rs l ;; call_all us base t l1 end.

(* link.cpp:301-322: where offsets of name space maps are to be put: location, unit *)
Definition lookups_of (us : list cunit) (base : Z) (b : bcode) : list (Z * Z) :=
  flat_map (fun o => match unit_index (fst o) us 0 with
                     | Some i => map (fun r => (base + r, i)) (snd o)
                     | None => [] end) (b_objs b).
(* link.cpp:252-391: the code of one unit.  [base] is a uint16_t. *)
Definition link_code (us : list cunit) (b : bcode) (code : list Z) : cres (list Z * list (Z * Z)) :=
  let base := u16 (lenZ code) in
  body <~ goto_all (b_jumps b) (b_gotos b) (b_all b) ;;
  code <~ call_all us base (b_fns b) (code ++ body) ;;
  COk (code, lookups_of us base b).
(* link.cpp:219-250: a function: its name space map, its offsets in the table; [pos] is offsetInBytecode *)
Definition link_unit (us : list cunit) (pos : Z) (u : cunit) (code : list Z) : cres (list Z * list (Z * Z) * Z) :=
  '(code, ns) <~ (if u_export u then
                    m <~ local_map u ;;
                    let base := if lenZ m =? 0 then 0 else u16 (lenZ code) in
                    c <~ put2 code pos base ;; COk (c ++ m, base)
                  else c <~ put2 code pos 0 ;; COk (c, 0)) ;;
  code <~ put2 code (pos + 2) (u16 (lenZ code)) ;;
  '(code, ls) <~ link_code us (u_code u) code ;;
  COk (code, ls, ns).
Fixpoint link_units (all : list cunit) (pos : Z) (us : list cunit) (code : list Z) (ls : list (Z * Z)) (nss : list Z)
  : cres (list Z * list (Z * Z) * list Z) :=
  match us with
  | [] => COk (code, ls, nss)
  | u :: r => '(code, l, ns) <~ link_unit all pos u code ;; link_units all (pos + 11) r code (ls ++ l) (nss ++ [ns])
  end.
(* link.cpp:394-402 *)
Fixpoint lookups_put (ls : list (Z * Z)) (nss : list Z) (code : list Z) : cres (list Z) :=
  match ls with
  | [] => COk code
  | (loc, i) :: r => match nthZ nss i with Some n => c <~ put2 code loc n ;; lookups_put r nss c | None => CUB end
  end.
(* link.cpp:75-415 *)
Definition link (main : bcode) (us : list cunit) (flags : Z) (symbols source : list Z) : cres (list Z) :=
  code <~ header main us flags symbols source ;;
  let us := exports main us in
  '(code, ls) <~ link_code us main code ;;
  '(code, ls, nss) <~ link_units us 3 us code ls [] ;;
  code <~ lookups_put (rev ls) nss code ;;
  COk (append_crc code).

(* ---- the loader ---- *)
(* vm.h WRFunction *)
Record lfn := mkLF { l_ns : Z; l_off : Z; l_hash : Z; l_args : Z; l_frame : Z; l_adjust : Z }.
Record ctx := mkC { c_globals : Z; c_start : Z; c_funs : list lfn }.
(* utils.cpp:361-376: one entry of the table *)
Definition read_fn (img : list Z) (pos : Z) : option lfn :=
  match rdu16 img pos, rdu16 img (pos + 2), rd32 img (pos + 4), rd8 img (pos + 8), rd8 img (pos + 9), rd8 img (pos + 10) with
  | Some n, Some o, Some h, Some a, Some f, Some d => Some (mkLF n o h a f d)
  | _, _, _, _, _, _ => None
  end.
Fixpoint read_fns (n : nat) (img : list Z) (pos : Z) : option (list lfn) :=
  match n with
  | O => Some []
  | S n' => match read_fn img pos, read_fns n' img (pos + 11) with Some f, Some r => Some (f :: r) | _, _ => None end
  end.
(* utils.cpp:339-357: where the code starts.  None: a size is read outside the image *)
Definition code_start (img : list Z) (globals funs flags : Z) : option Z :=
  let p := 3 + funs * 11 in
  let p := if has flags WR_INCLUDE_GLOBALS then p + globals * 4 else p in
  match (if has flags WR_EMBED_DEBUG_CODE || has flags WR_EMBED_SOURCE_CODE
         then option_map (fun n => p + 6 + n) (rdu16 img (p + 4)) else Some p) with
  | None => None
  | Some p => if has flags WR_EMBED_SOURCE_CODE
              then option_map (fun n => p + 4 + s32 n) (rd32 img p) else Some p
  end.
(* utils.cpp:277-380; the errors are None too *)
Definition create_context (img : list Z) : option ctx :=
  if wr_createContext_accepts img then
    match rd8 img 0, rd8 img 1, rd8 img 2 with
    | Some g, Some n, Some fl =>
      match code_start img g n fl, read_fns (Z.to_nat n) img 3 with
      | Some p, Some fs => Some (mkC g p fs)
      | _, _ => None
      end
    | _, _, _ => None
    end
  else None.
(* the function table of the interpreter (VmModel) *)
Definition vm_funs (c : ctx) : list fn :=
  map (fun f => mkFn (Z.to_nat (l_args f)) (Z.to_nat (l_frame f)) (Z.to_nat (l_adjust f)) (l_off f)) (c_funs c).
