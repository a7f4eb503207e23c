# usage: mutate.py FILE.v OLD NEW  -> rebuild a scratch copy with the edit, print the first failing lemma of each failing file
import sys,os,shutil,subprocess,re
f,old,new=sys.argv[1:4]
src='/verif/rocq'; dst='/tmp/mut/rocq'
os.makedirs('/tmp/mut',exist_ok=True)
subprocess.run(['rsync','-a','--delete',src+'/',dst+'/'],check=False) if shutil.which('rsync') else (shutil.rmtree(dst,ignore_errors=True),shutil.copytree(src,dst,copy_function=shutil.copy2))
p=dst+'/theories/'+f
s=open(p).read()
assert s.count(old)>=1,('not found',old)
assert s.count(old)==1,('ambiguous',s.count(old))
open(p,'w').write(s.replace(old,new))
subprocess.run('coq_makefile -f _CoqProject -o Makefile',shell=True,cwd=dst)
r=subprocess.run('timeout 3000 make -k -j4 2>&1',shell=True,cwd=dst,capture_output=True,text=True)
out=r.stdout
fails=[]
for m in re.finditer(r'File "\./theories/(\S+)", line (\d+)[^\n]*\n(Error[^\n]*)',out):
    fn,ln=m.group(1),int(m.group(2))
    lines=open(dst+'/theories/'+fn).read().split('\n')[:ln]
    nm='?'
    for l in reversed(lines):
        mm=re.match(r'\s*(?:Local )?(?:Lemma|Theorem|Example|Corollary|Definition|Fixpoint|Instance)\s+(\S+)',l)
        if mm: nm=mm.group(1); break
    fails.append((fn,nm))
print('FAILS' if fails else 'SURVIVED',fails)
