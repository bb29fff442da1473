"""Print the cipher table of /repo/tlsnames.go as Coq list entries."""
import re
src = open('/repo/tlsnames.go').read()
ents = re.findall(r'^\s*0x([0-9A-Fa-f]{4}):\s*"([^"]*)",', src, re.M)
print(';\n    '.join('(%d, B "%s")' % (int(a, 16), b) for a, b in ents))
