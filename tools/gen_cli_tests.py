# Writes to stdout a Coq file that compares Model_Cli.parse with argparse on random command lines.
# Use: python3 gen_cli_tests.py > T.v, then coqc -Q ../rocq/theories Verif T.v
import argparse, random, os, sys, io, contextlib
random.seed(7)
import tempfile
os.chdir(tempfile.mkdtemp())
for f in ['w','a','sys']: open(f,'w').write('x')
def ev():
    p=argparse.ArgumentParser(); p.add_argument('--settings',dest='settings',type=str); p.add_argument('--method',dest='method',type=str)
    p.add_argument('--hyperparams',dest='hypers',type=str); p.add_argument('--delete_after',dest='delete_after',action='store_true'); return p
def gr():
    p=ev(); p.add_argument('--grid',dest='grid'); return p
def sc():
    p=argparse.ArgumentParser(); p.add_argument("gold_file",type=str); p.add_argument("system_file",type=str)
    p.add_argument("--weights","-w",type=argparse.FileType("r"),default=None); p.add_argument("--verbose","-v",default=0,action="count"); return p
V={'e':['--settings','--set','--s','--method','--m','--hyperparams','--h','--hyp','--help','-h','-help','--delete_after','--d','--delete_after=1','--settings=a','--set=','--hyp=b=c','--grid','--grid=a b','--x','-x','-5','-.5','-5x','a','b c','','-','--m=-x','--s -','-h=1','--=a','-s'],
 's':['a','sys','w','-v','-vv','-vvv','-vw','-ww','-wno','-w=w','-w','--weights','--wei','--weights=w','--w=no','--verbose','--verb','--verbose=1','-vx','-v3','-h','-vh','--help','--h','-hv','-5','-1.5','--v','--ver x','','--x','-x','-vww','-vwno','-w=','--weights=','-v=1','a b']}
V['g']=V['e']+['--g','--grid=x','--gr','--grid']
P={'e':ev,'g':gr,'s':sc}
N={'e':'evaluation_parser','g':'grid_parser','s':'script_parser'}
def run(k,args):
    p=P[k]()
    o=io.StringIO()
    try:
        with contextlib.redirect_stdout(o), contextlib.redirect_stderr(o): ns=p.parse_args(args)
    except SystemExit as x:
        return 'Help' if x.code==0 else 'Usage'
    except Exception as x: return 'Exc '+type(x).__name__
    return ns
def q(s): return 'of_string "%s"'%s
out=[]; seen=set(); stat={}
while len(out)<6000:
    k=random.choice('egs'); n=random.randint(0,5)
    if k=='s' and random.random()<.7: args=[random.choice(['a','sys','w']) if random.random()<.4 else random.choice(V[k]) for _ in range(n)]
    elif random.random()<.5:
        args=[]
        for _ in range(n):
            args.append(random.choice(V[k]));
            if random.random()<.6: args.append(random.choice(['a','b c','-5','-','x']))
    else: args=[random.choice(V[k]) for _ in range(n)]
    key=(k,tuple(args))
    if key in seen: continue
    seen.add(key)
    r=run(k,args)
    if isinstance(r,str): e={'Help':'RHelp','Usage':'RUsage'}.get(r,'RExc'); stat[r]=stat.get(r,0)+1
    else:
        stat['ok']=stat.get('ok',0)+1
        if k=='s':
            vals=[('weights',r.weights and r.weights.name)]; sw=[('verbose',r.verbose)]; pl=[r.gold_file,r.system_file]
        else:
            vals=[(d,getattr(r,d)) for d in ['settings','method','hypers']+(['grid'] if k=='g' else [])]; sw=[('delete_after',None if not r.delete_after else 'b')]; pl=[]
        e='ROk [%s] [%s] [%s]'%('; '.join('(%s, %s)'%(q(d),'None' if v is None else 'Some (%s)'%q(v)) for d,v in vals),
          '; '.join('(%s, %s)'%(q(d), '0%nat' if not v else ('%d%%nat'%v if k=='s' else '1%nat')) for d,v in sw), '; '.join(q(x) for x in pl))
    out.append('(%s, [%s], %s)'%(N[k],'; '.join(q(a) for a in args),e))
print(stat,file=sys.stderr)
print('''From Coq Require Import String ZArith NArith Bool List.
From Verif Require Import Base Model_Cli.
Import ListNotations.
Open Scope string_scope.
Inductive r := RHelp | RUsage | RExc | ROk (v : list (str * option str)) (s : list (str * nat)) (p : list str).
Definition files : dict str := [(of_string "w", []); (of_string "a", []); (of_string "sys", [])].
Definition ok (c : parser * list str * r) : bool := let '(p, args, e) := c in
 match parse p files args, e with
 | Helped, RHelp => true | Usage, RUsage => true | Failed _, RExc => true
 | Started ns, ROk v s pl => forallb (fun x => option_eqb str_eqb (dict_get (stored ns) (fst x)) (snd x)) v
    && forallb (fun x => let n := match dict_get (switched ns) (fst x) with Some n => n | None => O end in
          if Nat.eqb (snd x) 1 then Nat.leb 1 n && (negb (Nat.eqb (positionals p) 2) || Nat.eqb n 1) else Nat.eqb n (snd x)) s
    && list_eqb str_eqb (places ns) pl
 | _, _ => false end.
Fixpoint bad (i : nat) (l : list (parser * list str * r)) : list nat := match l with [] => [] | c :: l' => (if ok c then [] else [i]) ++ bad (S i) l' end.''')
for i in range(0,len(out),500):
    print('Definition c%d : list (parser * list str * r) := [\n%s\n].\nEval vm_compute in (%d%%nat, bad 0 c%d).'%(i,';\n'.join(out[i:i+500]),i,i))
