# usage: mutbatch.py LIST.json OUT.jsonl : run every mutant {file, old, new, definition, edit, claim} of the list in a scratch copy
# /tmp/mut/rocq (made once from /verif/rocq, which must be built), and append the outcome to OUT.jsonl
import sys,os,shutil,subprocess,re,json
lst=json.load(open(sys.argv[1])); out=sys.argv[2]
src='/verif/rocq'; dst='/tmp/mut/rocq'
done=set()
if os.path.exists(out):
    for l in open(out): done.add(json.loads(l)['key'])
for m in lst:
    key=m['file']+'|'+m['old']+'|'+m['new']
    if key in done: continue
    shutil.rmtree(dst,ignore_errors=True); shutil.copytree(src,dst,copy_function=shutil.copy2)
    p=dst+'/theories/'+m['file']; s=open(p).read()
    if s.count(m['old'])!=1:
        print('BAD',s.count(m['old']),m['old']); continue
    open(p,'w').write(s.replace(m['old'],m['new']))
    subprocess.run('coq_makefile -f _CoqProject -o Makefile',shell=True,cwd=dst)
    r=subprocess.run('timeout 1500 make -k -j2 2>&1',shell=True,cwd=dst,capture_output=True,text=True)
    fails=[]
    for x in re.finditer(r'File "\./theories/(\S+)", line (\d+)[^\n]*\n((?:[^\n]*\n)??)(Error[^\n]*)',r.stdout):
        fn,ln=x.group(1),int(x.group(2))
        nm='?'
        for l in reversed(open(dst+'/theories/'+fn).read().split('\n')[:ln]):
            mm=re.match(r'\s*(?:Local )?(?:Lemma|Theorem|Example|Corollary|Definition|Fixpoint|Instance)\s+(\S+)',l)
            if mm: nm=mm.group(1); break
        fails.append(nm)
    lost=[]
    mt=os.path.getmtime(p)
    for f in sorted(os.listdir(dst+'/theories')):
        if f.startswith('Props_') and f.endswith('.v'):
            vo=dst+'/theories/'+f+'o'
            if not os.path.exists(vo): lost.append(f[:-2])
    rec=dict(key=key,definition=m['definition'],edit=m['edit'],claim=m['claim'],first=fails,lost=lost,rc=r.returncode)
    open(out,'a').write(json.dumps(rec)+'\n')
    print('SURVIVED' if r.returncode==0 else 'killed',m['definition'],'|',m['edit'],'|',fails,flush=True)
