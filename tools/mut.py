import subprocess,re,os,sys,json,shutil
SRC='/verif/rocq'
START=re.compile(r'^\s*(?:Local\s+|Global\s+|#\[[^\]]*\]\s*)?(Lemma|Theorem|Corollary|Example|Fact|Remark|Proposition)\s+([A-Za-z0-9_\']+)',re.M)
def run(mid,file,old,new,count=1):
    TB='/tmp/w/mut/%s'%mid
    if os.path.exists(TB): shutil.rmtree(TB)
    subprocess.run(['cp','-a',SRC,TB],check=True)
    th=TB+'/theories/'
    s=open(th+file+'.v').read()
    assert s.count(old)>=1,'old not found: '+old
    assert s.count(old)==count or count==0,'old count %d'%s.count(old)
    s=s.replace(old,new); open(th+file+'.v','w').write(s)
    order=[l.strip()[len('theories/'):-2] for l in open(TB+'/_CoqProject') if l.startswith('theories/')]
    deps={}
    for f in order:
        t=open(th+f+'.v').read()
        d=set()
        for m in re.finditer(r'From Verif Require (?:Import )?([^.]*)\.',t): d|=set(m.group(1).split())
        deps[f]=d
    # topological
    done=[];seen=set()
    def visit(f):
        if f in seen: return
        seen.add(f)
        for d in deps[f]: visit(d)
        done.append(f)
    for f in order: visit(f)
    dirty={file}
    failed={}  # name->file
    broken=[]
    for f in done:
        if f!=file and not (deps[f]&dirty): continue
        dirty.add(f)
        while True:
            try:
                p=subprocess.run(['coqc','-Q','theories','Verif','theories/%s.v'%f],cwd=TB,capture_output=True,text=True,timeout=240)
                if p.returncode==0: break
                m=re.search(r'File "[^"]*", line (\d+), characters (\d+)-',p.stderr)
                line=int(m.group(1)); msg=p.stderr[p.stderr.find('Error'):][:200]
            except subprocess.TimeoutExpired:
                return dict(failed=failed,broken=['timeout '+f],tb=TB)
            t=open(th+f+'.v').read()
            pos=sum(len(x)+1 for x in t.split('\n')[:line-1])+int(m.group(2))
            st=None
            for mm in START.finditer(t):
                if mm.start()<=pos: st=mm
            if st is None: broken.append((f,line,msg)); return dict(failed=failed,broken=broken,tb=TB)
            pr=re.compile(r'\bProof\b').search(t,st.end())
            q=re.compile(r'\b(Qed|Defined|Admitted)\.').search(t,st.end())
            if pr is None or pos<pr.start() or pos>q.end():
                broken.append((f,line,msg)); return dict(failed=failed,broken=broken,tb=TB)
            name=st.group(2); failed[name]=f
            # keep line structure
            body=t[pr.start():q.end()]
            t=t[:pr.start()]+'Admitted.'+'\n'*body.count('\n')+t[q.end():]
            open(th+f+'.v','w').write(t)
    # dependents of the admitted
    props=[]
    out='From Coq Require Import Reals.\n'
    for f in done:
        if f in dirty and f.endswith('_props'):
            t=open(th+f+'.v').read()
            out+='From Verif Require %s.\n'%f
            for mm in re.finditer(r'^\s*(?:Theorem|Corollary) (C\d+_\w+)',t,re.M):
                props.append(mm.group(1)); out+='Goal True. idtac "@@%s". Abort.\nPrint Assumptions %s.%s.\n'%(mm.group(1),f,mm.group(1))
    open(TB+'/q.v','w').write(out)
    p=subprocess.run(['coqc','-Q','theories','Verif','q.v'],cwd=TB,capture_output=True,text=True)
    if p.returncode!=0: broken.append(p.stderr[:500])
    cur=None;bad={}
    for l in p.stdout.split('\n'):
        if l.startswith('@@'): cur=l[2:].strip(); continue
        m=re.match(r'([A-Za-z0-9_.\']+)\s*(:|$)',l)
        if m:
            nm=m.group(1).split('.')[-1]
            if nm in failed: bad.setdefault(cur,[]).append(nm)
            if cur in failed: bad.setdefault(cur,[])
    for c in props:
        if c in failed: bad.setdefault(c,[])
    return dict(failed=failed,broken=broken,bad=bad,tb=TB,checked=len(props))
if __name__=='__main__':
    import importlib.util
    spec=importlib.util.spec_from_file_location('m',sys.argv[1]); m=importlib.util.module_from_spec(spec); spec.loader.exec_module(m)
    from concurrent.futures import ThreadPoolExecutor
    def one(x):
        mid,file,old,new,desc,claim=x[:6]
        try: r=run(mid,file,old,new,x[6] if len(x)>6 else 1)
        except Exception as e: r=dict(err=repr(e))
        r.update(id=mid,file=file,desc=desc,claim=claim)
        if os.path.exists('/tmp/w/mut/'+mid): shutil.rmtree('/tmp/w/mut/'+mid)
        return r
    res=[]
    with ThreadPoolExecutor(4) as ex:
        for r in ex.map(one,m.MUTS):
            res.append(r)
            print('=====',r['id'],r['file'],'|',r['desc'],'| claim',r['claim'])
            if r.get('err'): print('  ERR',r['err']);
            if r.get('broken'): print('  BROKEN',r['broken'])
            print('  failed lemmas:',[k for k in r.get('failed',{}) if not re.match(r'C\d+_',k)])
            print('  failed props:',sorted(r.get('bad',{})))
            hit=any(b.startswith(c+'_') for b in r.get('bad',{}) for c in r['claim'].split(','))
            print('  HIT' if hit else '  *** SURVIVED ***', flush=True)
            open('/tmp/w/mut_results.jsonl','a').write(json.dumps(r)+'\n')
