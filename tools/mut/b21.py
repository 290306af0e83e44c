F="Model/Quality64.v"
MUT=[
(F,"len64","rnd64 (sqrt (sq64 p q))","rnd64 (sq64 p q)","C128: squared lengths",[]),
(F,"quality64","let x := rnd64 (rnd64 (b + c) - a) in","let x := rnd64 (rnd64 (b + c) + a) in","C128: wrong sign in Heron",[]),
(F,"quality64","let y := rnd64 (rnd64 (c + a) - b) in","let y := rnd64 (rnd64 (c + b) - a) in","C128: factor twice",[]),
(F,"quality64","let s := rnd64 (rnd64 (a + b) + c) in","let s := rnd64 (rnd64 (a + b) + b) in","C128: wrong perimeter",[]),
(F,"quality64","if Rltb v 0 || Rltb w 0 then QNan","if Rltb v 0 || Rltb w 0 then QNum 0","C128: negative radicand counts as quality 0",[]),
(F,"quality64","let r := rnd64 (1 / 2 * rnd64 (sqrt v)) in","let r := rnd64 (1 * rnd64 (sqrt v)) in","C128: diameter of the incircle",[]),
(F,"quality64","(if Reqb m 0 then QNan else QNum 0)","(if Reqb m 0 then QNan else QInf)","C128: degenerate triangle infinitely good",[]),
(F,"quality64","let m := rnd64 (rnd64 (a * b) * c) in","let m := rnd64 (rnd64 (a * b) * b) in","C128: wrong circumradius",[]),
(F,"quality64","else QNum (rnd64 (rnd64 (2 * r) / k)).","else QNum (Rmin 1 (rnd64 (rnd64 (2 * r) / k))).","C128: quality capped at 1",[]),
(F,"simp_qual64","(len64 (nth 2 s []) (nth 1 s []))","(len64 (nth 2 s []) (nth 0 s []))","C128: side taken twice",[]),
(F,"entity_qual64","(nth e t [])","(nth (S e) t [])","C128: quality of the next row",[]),
(F,"as_number","match q with QNum x => Some x | _ => None end","match q with QNum x => Some x | QNan => Some 0 | QInf => None end","C128: NaN counts as zero",[]),
(F,"kept_rows64","min_qual bele t.","(rnd64 (min_qual * 2)) bele t.","C128: wrong minimum",[]),
(F,"worse64","| QNan, _ => 0","| QNan, _ => 1","C128: NaN removed last",[]),
(F,"worse64","| _, QNan => 1","| _, QNan => 0","C128: NaN removed last",[]),
(F,"worse64","if Rltb b a then 1 else 0","if Rltb a b then 1 else 0","C128: the better one removed",[]),
("Model/Laplace64.v","edge_lens64","if Rltb l eps52 then eps52 else l","l","C127: lengths not clipped",["C127_short_edges_stop"]),
("Model/Laplace64.v","lap_loop64","if Rltb move tol then p'","if Rltb move 0 then p'","C127: tolerance ignored",["C127_short_edges_stop"]),
]
