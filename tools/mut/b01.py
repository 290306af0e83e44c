F='Model/FastHJ.v';S='Model/Sizing.v';B='Model/ReadBin.v';O='Model/Options.v'
MUT=[
(F,'stencil','sub2ind ipos (Z.min (jpos + 1) d1) kpos d0 d1 - 1;','sub2ind ipos (Z.min (jpos + 1) d0) kpos d0 d1 - 1;','C06: wrong extent clamps the +j neighbour, indices leave the array / C01 limiter skips edges',[]),
(F,'stencil','sub2ind ipos jpos (Z.max (kpos - 1) 1) d0 d1 - 1 ]','sub2ind ipos jpos (Z.max (kpos - 1) 1) d0 d1 ]','C06: off by one neighbour',[]),
(F,'stencil','    sub2ind (Z.max (ipos - 1) 1) jpos kpos d0 d1 - 1;\n','','C01?: one of the six neighbours dropped (edge relation symmetric, so the fixed point may still be right)',[]),
(F,'relax','if Rgtb f1 (rnd (fun1 + ftol)%R) then','if Rgtb fun1 (rnd (f1 + ftol)%R) then','C01: values never lowered / raised instead',[]),
(F,'relax','let fun2 := rnd (f1 + g)%R in','let fun2 := rnd (f1 - g)%R in','C02/C03: values pushed below the lower envelope',[]),
(F,'relax (dropped activity mark)','obind (aset_at (fld s) nod2 fun2) (fun f\' =>\n      obind (aset_at (act s) nod2 iter) (fun a\' => Some (mkL f\' a\')))','obind (aset_at (fld s) nod2 fun2) (fun f\' => Some (mkL f\' (act s)))','C01: lowered node not re-activated, stops too early',[]),
(F,'hj_loop','let aidx := findIndices (act s) (iter - 1) in','let aidx := findIndices (act s) iter in','C01: active set of the wrong pass',[]),
(F,'ind2sub','let j := 1 + Z.quot (tmp2 - 1) nrows in','let j := 1 + Z.quot tmp2 nrows in','C06: wrong column at the end of each row',[]),
(F,'plane_index','Zceil (rnd64 (IZR index / IZR (nrows * ncols)))','Zfloor (rnd64 (IZR index / IZR (nrows * ncols)))','C06: wrong plane',[]),
(F,'c_limgrad_full','let g := rnd (elen * dfdx)%R in','let g := rnd elen in','C01: gradation ignored',[]),
(S,'clamp','(amap (fun v => if Rltb v hmin then hmin else v) a)','a','C07: lower bound not enforced',[]),
(S,'clamp order','amap (fun v => if Rgtb v hmax then hmax else v) (amap (fun v => if Rltb v hmin then hmin else v) a)','amap (fun v => if Rltb v hmin then hmin else v) (amap (fun v => if Rgtb v hmax then hmax else v) a)','C07: only differs when hmin > hmax',[]),
(S,'wavelength_sizing','SzOk (amap (fun v => v / (freq * wl)) vp)','SzOk (amap (fun v => v * freq / wl) vp)','C08: wavelength formula',[]),
(S,'gradient_of_variance','let w2 := amap (fun v => v - mn) w1 in','let w2 := w1 in','C18/C09: normalisation not shifted',[]),
(S,'courant','if Rgtb (v * dt / (d * s)) cr then v * dt / (d * cr) else s','if Rgtb (v * dt / s) cr then v * dt / (d * cr) else s','C10: Courant test without the dimension',[]),
(S,'courant','let cr := cr_max / (d * space_order) in','let cr := cr_max / space_order in','C10: Courant limit',[]),
(S,'gradation','limgrad (fun x => x) (Z.of_nat (n0 a)) (Z.of_nat (n1 a)) (Z.of_nat (n2 a))','limgrad (fun x => x) (Z.of_nat (n1 a)) (Z.of_nat (n0 a)) (Z.of_nat (n2 a))','C11: extents swapped',[]),
(S,'pad_it','(p0 + n0 a) (p1 + n1 a + p1) (p2 + n2 a + p2) f3','(p0 + n0 a + p0) (p1 + n1 a + p1) (p2 + n2 a + p2) f3','C14: also padded at the top',[]),
(S,'pad1','else if (i <? b + n)%nat then f (i - b)%nat','else if (i <? b + n)%nat then f i','C14: interior shifted',[]),
(S,'padded_bbox','else [bget b 0 - pad; bget b 1; bget b 2 - pad; bget b 3 + pad]','else [bget b 0 - pad; bget b 1 + pad; bget b 2 - pad; bget b 3 + pad]','C14/C13: box grows at the top',[]),
(S,'replace_water','if Rltb x 1300 || Rgtb x 1800 then SzErr ValueError','if Rltb x 1300 then SzErr ValueError','C12: upper limit of vp_water dropped',[]),
(S,'water_trigger','is_water (av vp i j k) && negb (Nat.eqb i 0)','is_water (av vp i j k)','C12: row 0 counts too (the negative half about row 0 becomes false)',[]),
(S,'convert_units','| KMS => amap (fun v => v * 1000) vp','| KMS => amap (fun v => v / 1000) vp','C16/C13: units',[]),
(S,'linspace','lo + INR i * ((hi - lo) / INR (n - 1))','lo + INR i * ((hi - lo) / INR n)','C15: last grid line not on the box',[]),
(B,'source_offset',"let i' := nz - 1 - i in","let i' := nz - i in",'C17: flip off by one',[]),
(B,'offset','| OrdC => (a * m1 + b) * m2 + c','| OrdC => a + m0 * (b + m1 * c)','C17: order C ignored',[]),
(B,'source_offset','map (fun r => nth (index_of r ao) ijk 0) [0; 1; 2]','map (fun r => nth (nth r ao 0) ijk 0) [0; 1; 2]','C17: transpose by the inverse permutation',[]),
(O,'mesh_keys','"verbose"; "max_iter"; ','"max_iter"; ','C19: a documented option is rejected',[]),
(O,'check_keys','if mem k known then check_keys known t else Err ValueError\n','if mem k known then check_keys known t else check_keys known t\n','C19: unknown options accepted',[]),
]
